(** Lemmas for the Langevin integrators. *)
From Coq Require Import Reals Lra.
From Coquelicot Require Import Coquelicot.
From stdpp Require Import gmap.
From Verif Require Import Base Vec3 BoxSpec OrthoModel CellListModel CellListSpec PairListModel PairListSpec EnergyModel EnergySpec EnergyProofs MdModel MdSpec MdProofs ThermoModel ThermoSpec ThermoProofs.
From Coq Require Import Reals Lra.
Local Open Scope R_scope.

(** ** Means *)
Lemma mean_ext n f g : (forall l, length l = n -> f l = g l) -> mean n f = mean n g.
Proof.
  revert f g. induction n as [|n IH]; intros f g H; cbn [mean]; [by apply H|].
  apply RInt_ext. intros x _. apply IH. intros l Hl. apply H. cbn [length]. by rewrite Hl.
Qed.
Lemma mean_app n m f : mean (n + m) f = mean n (fun l => mean m (fun l' => f (l ++ l'))).
Proof.
  revert f. induction n as [|n IH]; intros f; cbn [mean Nat.add app]; [done|]. apply RInt_ext. intros x _. by rewrite IH.
Qed.
(** Functions that are sums of functions of one number each. *)
Lemma mean_sum n (g : nat -> R -> R) B : (forall j, ex_RInt (g j) 0 1) ->
  mean n (fun l => sum_over (seq 0 n) (fun j => g j (nth j l 0)) + B) = sum_over (seq 0 n) (fun j => RInt (g j) 0 1) + B.
Proof.
  intros Hg. revert g B Hg. induction n as [|n IH]; intros g B Hg; cbn [mean seq]; [by rewrite !sum_nil|].
  rewrite (RInt_ext _ (fun x => g 0%nat x + (sum_over (seq 0 n) (fun j => RInt (g (S j)) 0 1) + B))).
  - rewrite (RInt_plus (V := R_CompleteNormedModule) (g 0%nat) (fun _ => sum_over (seq 0 n) (fun j => RInt (g (S j)) 0 1) + B)); [|done|apply ex_RInt_const].
    rewrite RInt_const, sum_cons, <- seq_shift, sum_map.
    unfold Hierarchy.plus, Hierarchy.scal. cbn. unfold Hierarchy.mult. cbn. match goal with |- ?a = ?b => change (@eq R a b) end. ring.
  - intros x _. rewrite (mean_ext n _ (fun l => sum_over (seq 0 n) (fun j => g (S j) (nth j l 0)) + (g 0%nat x + B))).
    + rewrite (IH (fun j => g (S j))) by (intros; apply Hg). match goal with |- ?a = ?b => change (@eq R a b) end. ring.
    + intros l _. rewrite sum_cons, <- seq_shift, sum_map. cbn [nth]. ring.
Qed.
(** The quadratic functions that occur. *)
Lemma quad_int A0 C0 al be : is_RInt (fun x => A0 * (al + be * (x - 1/2)) * (al + be * (x - 1/2)) + C0 * (al + be * (x - 1/2))) 0 1
  (A0 * (al * al + be * be / 12) + C0 * al).
Proof.
  set (P := fun x => A0 * (al * al * x + al * be * (x * x - x) + be * be * ((x - 1/2) * (x - 1/2) * (x - 1/2)) / 3) + C0 * (al * x + be * (x * x - x) / 2)).
  replace (A0 * (al * al + be * be / 12) + C0 * al) with (P 1 - P 0) by (unfold P; field).
  apply (is_RInt_derive (V := R_CompleteNormedModule) P).
  - intros x _. unfold P. auto_derive; [done|]. field.
  - intros x _. apply (ex_derive_continuous (K := R_AbsRing) (V := R_NormedModule)). auto_derive. done.
Qed.

(** ** Sums over atoms and components *)
Lemma sum_nth (L : list nat) f : sum_over L f = sum_over (seq 0 (length L)) (fun i => f (nth i L 0%nat)).
Proof.
  induction L as [|a L IH]; cbn [length seq]; [by rewrite !sum_nil|]. rewrite !sum_cons, IH, <- seq_shift, sum_map. done.
Qed.
Lemma sum_app' {B} (l k : list B) f : sum_over (l ++ k) f = sum_over l f + sum_over k f.
Proof. induction l as [|x l IH]; cbn [app]; [rewrite sum_nil; ring|]. rewrite !sum_cons, IH. ring. Qed.
Lemma sum_3 N (f : nat -> R) : sum_over (seq 0 (3 * N)) f = sum_over (seq 0 N) (fun i => f (3 * i)%nat + f (3 * i + 1)%nat + f (3 * i + 2)%nat).
Proof.
  induction N as [|N IH]; [reflexivity|]. rewrite (seq_S N 0), sum_app', <- IH. replace (3 * S N)%nat with (3 * N + 3)%nat by lia.
  rewrite seq_app, sum_app'. cbn [Nat.add seq]. rewrite !sum_cons, !sum_nil. replace (S (3 * N)) with (3 * N + 1)%nat by lia.
  replace (S (3 * N + 1)) with (3 * N + 2)%nat by lia. ring.
Qed.

Section Lang.
  Context {X : Type} (y : mdsys) (gamma temp : R).
  Context (calc : (nat -> vec3 R) -> (nat -> vec3 R) -> X -> outcome ((nat -> vec3 R) * (nat -> vec3 R) * X)).
  Context (Hnd : NoDup (yAtoms y)).

  (** The loop over atoms. *)
  Lemma kick_spec unif (L : list nat) F vel k F' vel' k' : NoDup L -> fold_left (lang_kick y gamma temp unif) L (F, vel, k) = (F', vel', k') ->
    k' = (k + 3 * length L)%nat /\ (forall a, a ∉ L -> F' a = F a /\ vel' a = vel a) /\
    forall i a, L !! i = Some a ->
      (forall c, (c < 3)%nat -> vget (F' a) c = vget (F a) c + (lang_cv y gamma a * vget (vel a) c + (unif (k + 3 * i + c)%nat - 1/2) * lang_cr y gamma temp a)) /\
      vel' a = vadd (vel a) (vscale (prefactor y a) (F' a)).
  Proof.
    intros HL. revert F vel k. induction HL as [|x L Hx HL IH]; intros F vel k; cbn [fold_left].
    - intros [= <- <- <-]. split; [cbn; lia|]. done.
    - unfold lang_kick at 2. intros E. destruct (IH _ _ _ E) as (E1 & E2 & E3). split; [cbn [length]; lia|]. split.
      + intros a [Hn Ha]%not_elem_of_cons. destruct (E2 a Ha) as [-> ->]. by rewrite !move_other.
      + intros [|i] a; cbn [lookup list_lookup].
        * intros [= ->]. destruct (E2 a Hx) as [-> ->]. rewrite !move_same. split; [|done]. intros c Hc.
          rewrite vget_add. f_equal. unfold vscale. cbn [vx vy vz]. destruct c as [|[|[|]]]; [..|lia]; cbn [vget vx vy vz]; do 4 f_equal; lia.
        * intros Hi. destruct (E3 i a Hi) as [E4 E5]. assert (Hn : a <> x) by (intros ->; apply Hx; by eapply elem_of_list_lookup_2).
          rewrite !move_other in * by done. split; [|done]. intros c Hc. rewrite E4 by done. do 5 f_equal. lia.
  Qed.

  (** Velocity half a step ahead. *)
  Definition vmid (s : mds X) (a : nat) : vec3 R := vadd (mVel s a) (vscale (prefactor y a) (mFrc s a)).
  Notation q := (exp (- (gamma * yDt y))).
  (** One step. *)
  Lemma lang_step_spec unif s k s' k' : lang_step y gamma temp unif calc (s, k) = Ok (s', k') ->
    k' = (k + 3 * length (yAtoms y))%nat /\
    exists pos1 pos2 F2 vel1, calc pos1 (mFrc s) (mX s) = Ok (pos2, F2, mX s') /\ mPos s' = pos2 /\
      forall i a, yAtoms y !! i = Some a ->
        vel1 a = vmid s a /\ pos1 a = vadd (mPos s a) (vscale (yDt y) (vel1 a)) /\
        (forall c, (c < 3)%nat -> vget (mFrc s' a) c = vget (F2 a) c + (lang_cv y gamma a * vget (vel1 a) c + (unif (k + 3 * i + c)%nat - 1/2) * lang_cr y gamma temp a)) /\
        mVel s' a = vadd (vel1 a) (vscale (prefactor y a) (mFrc s' a)).
  Proof using Hnd.
    unfold lang_step. pose proof (integrate1_spec y (mFrc s) (mPos s) (mVel s) Hnd _ eq_refl) as H1.
    destruct (integrate1 y (mFrc s) (mPos s, mVel s)) as [pos1 vel1]. cbn [fst snd] in H1.
    intros ([[pos2 F] x] & Hc & H)%obind_Ok. destruct (fold_left _ _ _) as [[F' vel'] k2] eqn:EK. injection H as <- <-. cbn [mX mPos mFrc mVel].
    destruct (kick_spec unif (yAtoms y) F vel1 k F' vel' k2 Hnd EK) as (E1 & _ & E2). split; [done|].
    exists pos1, pos2, F, vel1. split; [done|]. split; [done|]. intros i a Hi. assert (Ha : a ∈ yAtoms y) by (by eapply elem_of_list_lookup_2).
    destruct (proj1 (H1 a) Ha) as [V1 V2]. destruct (E2 i a Hi) as [V3' V4]. done.
  Qed.

  Context (Hdt : 0 < yDt y) (Hgam : 0 <= gamma) (Htemp : 0 <= temp).
  Context (Hmass : forall a, a ∈ yAtoms y -> 0 < yMass y (yTy y a)).

  (** The size of the random change of the velocity. *)
  Definition kick (a : nat) : R := yDt y / yMass y (yTy y a) * lang_cr y gamma temp a.
  Lemma q_pos : 0 < q.
  Proof. apply exp_pos. Qed.
  Lemma q_le : q <= 1.
  Proof using Hdt Hgam.
    rewrite <- exp_0. destruct (Req_dec (gamma * yDt y) 0) as [->|Hn]; [rewrite Ropp_0; lra|]. left. apply exp_increasing.
    assert (0 <= gamma * yDt y) by (apply Rmult_le_pos; lra). lra.
  Qed.
  Lemma q_model : exp (- yDt y * gamma) = q.
  Proof. f_equal. ring. Qed.
  Lemma q2_model : exp (-2 * yDt y * gamma) = q * q.
  Proof. rewrite <- exp_plus. f_equal. ring. Qed.
  Lemma kick_sq a : a ∈ yAtoms y -> kick a * kick a = 12 * ((1 - q * q) * (2 * temp / (yMass y (yTy y a) * (1 + q)))).
  Proof using Hdt Hgam Htemp Hmass.
    intros Ha. pose proof (Hmass a Ha) as Hm. pose proof q_pos as Q0. pose proof q_le as Q1. unfold kick, lang_cr. cbv zeta. rewrite q_model, q2_model.
    set (Y := yMass y (yTy y a) * (12 * temp * (2 / (1 + q)) * (1 - q * q) / (yDt y * yDt y))).
    assert (HY : 0 <= Y).
    { unfold Y. apply Rmult_le_pos; [lra|]. unfold Rdiv. apply Rmult_le_pos.
      - apply Rmult_le_pos; [|nra]. apply Rmult_le_pos; [lra|]. apply Rmult_le_pos; [lra|]. left. apply Rinv_0_lt_compat. lra.
      - left. apply Rinv_0_lt_compat. nra. }
    replace (yDt y / yMass y (yTy y a) * sqrt Y * (yDt y / yMass y (yTy y a) * sqrt Y)) with
      (yDt y / yMass y (yTy y a) * (yDt y / yMass y (yTy y a)) * (sqrt Y * sqrt Y)) by ring.
    rewrite sqrt_sqrt by done. unfold Y. field. repeat split; lra.
  Qed.

  Context (Hfree : forall pos F x r, calc pos F x = Ok r -> forall a, a ∈ yAtoms y -> r.1.2 a = V3 0 0 0).

  (** What a step does to an atom without forces. *)
  Lemma free_step unif s k s' k' i a c : lang_step y gamma temp unif calc (s, k) = Ok (s', k') -> yAtoms y !! i = Some a -> (c < 3)%nat ->
    vget (vmid s' a) c = q * vget (vmid s a) c + kick a * (unif (k + 3 * i + c)%nat - 1/2) /\
    vget (mVel s' a) c = (1 + q) / 2 * vget (vmid s a) c + kick a / 2 * (unif (k + 3 * i + c)%nat - 1/2).
  Proof using Hnd Hdt Hmass Hfree.
    intros H Hi Hc. assert (Ha : a ∈ yAtoms y) by (by eapply elem_of_list_lookup_2). pose proof (Hmass a Ha) as Hm.
    destruct (lang_step_spec unif s k s' k' H) as (_ & pos1 & pos2 & F2 & vel1 & Hcalc & _ & E). destruct (E i a Hi) as (E1 & _ & E2 & E3).
    pose proof (Hfree _ _ _ _ Hcalc a Ha) as E4. cbn [fst snd] in E4. specialize (E2 c Hc). rewrite E4, vget_zero, Rplus_0_l, E1 in E2.
    unfold vmid at 1. rewrite vget_add, vget_scale, E3, vget_add, vget_scale, E2, E1.
    assert (EC : lang_cv y gamma a = yMass y (yTy y a) * ((q - 1) / yDt y)) by (unfold lang_cv; by rewrite q_model).
    rewrite EC. unfold prefactor, kick. split; field; lra.
  Qed.

  (** Sums of quadratic functions of the velocities. *)
  Definition quad (Q C : nat -> nat -> R) (u : nat -> vec3 R) : R :=
    sum_over (yAtoms y) (fun a => (Q a 0%nat * vget (u a) 0 * vget (u a) 0 + C a 0%nat * vget (u a) 0) +
                                  (Q a 1%nat * vget (u a) 1 * vget (u a) 1 + C a 1%nat * vget (u a) 1) +
                                  (Q a 2%nat * vget (u a) 2 * vget (u a) 2 + C a 2%nat * vget (u a) 2)).
  Definition quad_sum (f : nat -> nat -> R) : R := sum_over (yAtoms y) (fun a => f a 0%nat + f a 1%nat + f a 2%nat).
  Lemma quad_sum_ext f g : (forall a c, a ∈ yAtoms y -> (c < 3)%nat -> f a c = g a c) -> quad_sum f = quad_sum g.
  Proof. intros H. apply sum_ext. intros a Ha. by rewrite !H by (done || lia). Qed.
  Lemma quad_split Q C u : quad Q C u = quad_sum (fun a c => Q a c * vget (u a) c * vget (u a) c + C a c * vget (u a) c).
  Proof. done. Qed.
  Lemma quad_plus f g : quad_sum (fun a c => f a c + g a c) = quad_sum f + quad_sum g.
  Proof. unfold quad_sum. rewrite <- EnergyProofs.sum_plus. apply sum_ext. intros a _. ring. Qed.
  Lemma quad_scale x f : quad_sum (fun a c => x * f a c) = x * quad_sum f.
  Proof. unfold quad_sum. rewrite <- sum_const_mult. apply sum_ext. intros a _. ring. Qed.

  (** The mean over the numbers of one step. *)
  Lemma step_mean Q C al be (u : list R -> nat -> vec3 R) B :
    (forall l i a c, length l = (3 * length (yAtoms y))%nat -> yAtoms y !! i = Some a -> (c < 3)%nat ->
       vget (u l a) c = al a c + be a c * (nth (3 * i + c) l 0 - 1/2)) ->
    mean (3 * length (yAtoms y)) (fun l => quad Q C (u l) + B) =
    quad_sum (fun a c => Q a c * (al a c * al a c + be a c * be a c / 12) + C a c * al a c) + B.
  Proof using.
    intros Hu.
    set (at_ := fun j => nth (j / 3) (yAtoms y) 0%nat). set (co := fun j => (j mod 3)%nat).
    set (g := fun j x => Q (at_ j) (co j) * (al (at_ j) (co j) + be (at_ j) (co j) * (x - 1/2)) * (al (at_ j) (co j) + be (at_ j) (co j) * (x - 1/2)) +
                         C (at_ j) (co j) * (al (at_ j) (co j) + be (at_ j) (co j) * (x - 1/2))).
    assert (HJ : forall i c, (c < 3)%nat -> at_ (3 * i + c)%nat = nth i (yAtoms y) 0%nat /\ co (3 * i + c)%nat = c).
    { intros i c Hc. unfold at_, co. split.
      - f_equal. symmetry. apply (Nat.div_unique _ 3 i c); lia.
      - symmetry. apply (Nat.mod_unique _ 3 i c); lia. }
    rewrite (mean_ext _ _ (fun l => sum_over (seq 0 (3 * length (yAtoms y))) (fun j => g j (nth j l 0)) + B)).
    - rewrite (mean_sum _ g B) by (intros j; eexists; apply quad_int). f_equal.
      rewrite (sum_ext _ (fun j => Q (at_ j) (co j) * (al (at_ j) (co j) * al (at_ j) (co j) + be (at_ j) (co j) * be (at_ j) (co j) / 12) +
        C (at_ j) (co j) * al (at_ j) (co j))) by (intros j _; apply (is_RInt_unique (V := R_CompleteNormedModule)), quad_int).
      rewrite sum_3. unfold quad_sum. rewrite (sum_nth (yAtoms y)). apply sum_ext. intros i _.
      destruct (HJ i 0%nat ltac:(lia)) as [A0 C0]. rewrite Nat.add_0_r in A0, C0. destruct (HJ i 1%nat ltac:(lia)) as [A1 C1]. destruct (HJ i 2%nat ltac:(lia)) as [A2 C2].
      by rewrite A0, C0, A1, C1, A2, C2.
    - intros l Hl. f_equal. rewrite sum_3. unfold quad. rewrite (sum_nth (yAtoms y)). apply sum_ext. intros i Hi.
      assert (Hlt : (i < length (yAtoms y))%nat) by (apply elem_of_list_In, in_seq in Hi; lia).
      assert (Hlk : yAtoms y !! i = Some (nth i (yAtoms y) 0%nat)) by (rewrite nth_lookup; by destruct (lookup_lt_is_Some_2 _ _ Hlt) as [z ->]).
      unfold g. destruct (HJ i 0%nat ltac:(lia)) as [A0 C0]. rewrite Nat.add_0_r in A0, C0. destruct (HJ i 1%nat ltac:(lia)) as [A1 C1]. destruct (HJ i 2%nat ltac:(lia)) as [A2 C2].
      rewrite A0, C0, A1, C1, A2, C2.
      rewrite (Hu l i _ 0%nat Hl Hlk ltac:(lia)), (Hu l i _ 1%nat Hl Hlk ltac:(lia)), (Hu l i _ 2%nat Hl Hlk ltac:(lia)). by rewrite Nat.add_0_r.
  Qed.

  (** ** Runs *)
  Lemma kick_ext u1 u2 (L : list nat) F vel k : (forall j, (k <= j < k + 3 * length L)%nat -> u1 j = u2 j) ->
    fold_left (lang_kick y gamma temp u1) L (F, vel, k) = fold_left (lang_kick y gamma temp u2) L (F, vel, k).
  Proof.
    revert F vel k. induction L as [|x L IH]; intros F vel k H; cbn [fold_left]; [done|]. cbn [length] in H.
    unfold lang_kick at 2 4. rewrite !(H k), !(H (k + 1)%nat), !(H (k + 2)%nat) by lia. apply IH. intros j Hj. apply H. lia.
  Qed.
  Lemma lang_step_ext u1 u2 s k : (forall j, (k <= j < k + 3 * length (yAtoms y))%nat -> u1 j = u2 j) ->
    lang_step y gamma temp u1 calc (s, k) = lang_step y gamma temp u2 calc (s, k).
  Proof.
    intros H. unfold lang_step. destruct (integrate1 _ _ _) as [pos vel]. destruct (calc _ _ _) as [[[p F] x]| |]; [|done..]. cbn [obind]. by rewrite (kick_ext u1 u2).
  Qed.
  Lemma lang_step_count unif s k s' k' : lang_step y gamma temp unif calc (s, k) = Ok (s', k') -> k' = (k + 3 * length (yAtoms y))%nat.
  Proof using Hnd. intros H. by apply lang_step_spec in H as [-> _]. Qed.
  Lemma lang_run_ext u1 u2 n s k : (forall j, (k <= j < k + 3 * length (yAtoms y) * n)%nat -> u1 j = u2 j) ->
    lang_run y gamma temp u1 calc n (s, k) = lang_run y gamma temp u2 calc n (s, k).
  Proof using Hnd.
    revert s k. induction n as [|n IH]; intros s k H; cbn [lang_run]; [done|]. rewrite (lang_step_ext u1 u2) by (intros j Hj; apply H; lia).
    destruct (lang_step y gamma temp u2 calc (s, k)) as [[s1 k1]| |] eqn:E; [|done..]. cbn [obind]. apply lang_step_count in E as ->. apply IH. intros j Hj. apply H. lia.
  Qed.
  Lemma lang_run_snoc unif n s : lang_run y gamma temp unif calc (S n) s = obind (lang_run y gamma temp unif calc n s) (lang_step y gamma temp unif calc).
  Proof.
    revert s. induction n as [|n IH]; intros s.
    - cbn [lang_run obind]. by destruct (lang_step y gamma temp unif calc s).
    - cbn [lang_run] in *. destruct (lang_step y gamma temp unif calc s) as [s1| |]; [|done..]. cbn [obind]. apply IH.
  Qed.
  Lemma lang_run_count unif n s k s' k' : lang_run y gamma temp unif calc n (s, k) = Ok (s', k') -> k' = (k + 3 * length (yAtoms y) * n)%nat.
  Proof using Hnd.
    revert s k. induction n as [|n IH]; intros s k; cbn [lang_run]; [intros [= _ <-]; lia|].
    intros ([s1 k1] & H1 & H)%obind_Ok. apply lang_step_count in H1 as ->. apply IH in H as ->. lia.
  Qed.

  Local Notation runs := (ThermoSpec.runs y gamma temp calc).
  Lemma runs_S n s fin : runs (S n) s fin -> exists fin1, runs n s fin1 /\ forall l1 l2, length l1 = (3 * length (yAtoms y) * n)%nat -> length l2 = (3 * length (yAtoms y))%nat ->
      exists unif k, lang_step y gamma temp unif calc (fin1 l1, (3 * length (yAtoms y) * n)%nat) = Ok (fin (l1 ++ l2), k) /\     forall j, (j < 3 * length (yAtoms y))%nat -> unif (3 * length (yAtoms y) * n + j)%nat = nth j l2 0.
  Proof using Hnd.
    set (N3 := (3 * length (yAtoms y))%nat). intros Hr.
    assert (HE : forall l1 l2, length l1 = (N3 * n)%nat -> lang_run y gamma temp (numbers (l1 ++ l2)) calc n (s, 0%nat) = lang_run y gamma temp (numbers l1) calc n (s, 0%nat)).
    { intros l1 l2 Hl. apply lang_run_ext. intros j Hj. fold N3 in Hj. unfold numbers. rewrite app_nth1; [done|]. lia. }
    exists (fun l1 => match lang_run y gamma temp (numbers l1) calc n (s, 0%nat) with Ok (t, _) => t | _ => s end). split.
    - intros l1 Hl. destruct (Hr (l1 ++ replicate N3 0)) as [k Hk]; [rewrite app_length, replicate_length, Hl; fold N3; lia|].
      rewrite lang_run_snoc, HE in Hk by done. apply obind_Ok in Hk as ([t k1] & -> & _). eauto.
    - intros l1 l2 Hl1 Hl2. destruct (Hr (l1 ++ l2)) as [k Hk]; [rewrite app_length; fold N3; lia|].
      rewrite lang_run_snoc, HE in Hk by done. apply obind_Ok in Hk as ([t k1] & E1 & E2). rewrite E1. pose proof (lang_run_count _ _ _ _ _ _ E1) as E3. cbn in E3. fold N3 in E3. subst k1.
      exists (numbers (l1 ++ l2)), k. split; [done|]. intros j Hj. unfold numbers. rewrite app_nth2 by lia. f_equal. lia.
  Qed.

  Notation S_ a := (2 * temp / (yMass y (yTy y a) * (1 + q))).
  Lemma run_mean n s fin Q C B : runs n s fin ->
    mean (3 * length (yAtoms y) * n) (fun l => quad Q C (vmid (fin l)) + B) =
    quad_sum (fun a c => Q a c * ((q * q) ^ n * (vget (vmid s a) c * vget (vmid s a) c) + (1 - (q * q) ^ n) * S_ a) + C a c * (q ^ n * vget (vmid s a) c)) + B.
  Proof using Hnd Hdt Hgam Htemp Hmass Hfree.
    revert fin Q C B. induction n as [|n IH]; intros fin Q C B Hr.
    - rewrite Nat.mul_0_r. cbn [mean]. destruct (Hr []) as [k Hk]; [cbn; lia|]. cbn [lang_run] in Hk. injection Hk as E _. rewrite <- E. f_equal. rewrite quad_split. apply quad_sum_ext.
      intros a c _ _. cbn [pow]. ring.
    - destruct (runs_S n s fin Hr) as (fin1 & Hr1 & Hs). rewrite Nat.mul_succ_r, mean_app.
      rewrite (mean_ext _ _ (fun l1 => quad (fun a c => Q a c * (q * q)) (fun a c => C a c * q) (vmid (fin1 l1)) + (quad_sum (fun a c => Q a c * ((1 - q * q) * S_ a)) + B))).
      + rewrite (IH fin1 _ _ _ Hr1). rewrite <- Rplus_assoc, <- quad_plus. f_equal. apply quad_sum_ext. intros a c _ _. cbn [pow]. ring.
      + intros l1 Hl1.
        rewrite (step_mean Q C (fun a c => q * vget (vmid (fin1 l1) a) c) (fun a _ => kick a) (fun l2 => vmid (fin (l1 ++ l2))) B).
        * rewrite quad_split, <- Rplus_assoc, <- quad_plus. f_equal. apply quad_sum_ext. intros a c Ha _. rewrite (kick_sq a Ha). field.
          pose proof q_pos. pose proof (Hmass a Ha). lra.
        * intros l2 i a c Hl2 Hi Hc. destruct (Hs l1 l2 Hl1 Hl2) as (unif & k & Hst & Hu). destruct (free_step _ _ _ _ _ i a c Hst Hi Hc) as [-> _].
          apply lookup_lt_Some in Hi. rewrite <- Nat.add_assoc, Hu by lia. done.
  Qed.
  Lemma run_mean_vel n s fin Q C B : runs (S n) s fin ->
    mean (3 * length (yAtoms y) * S n) (fun l => quad Q C (mVel (fin l)) + B) =
    quad_sum (fun a c => Q a c * (temp / yMass y (yTy y a) + ((1 + q) / 2) * ((1 + q) / 2) * (q * q) ^ n * (vget (vmid s a) c * vget (vmid s a) c - S_ a)) +
                         C a c * ((1 + q) / 2 * q ^ n * vget (vmid s a) c)) + B.
  Proof using Hnd Hdt Hgam Htemp Hmass Hfree.
    intros Hr. destruct (runs_S n s fin Hr) as (fin1 & Hr1 & Hs). rewrite Nat.mul_succ_r, mean_app.
    rewrite (mean_ext _ _ (fun l1 => quad (fun a c => Q a c * ((1 + q) / 2 * ((1 + q) / 2))) (fun a c => C a c * ((1 + q) / 2)) (vmid (fin1 l1)) +
      (quad_sum (fun a c => Q a c * ((1 - q * q) / 4 * S_ a)) + B))).
    - rewrite (run_mean n s fin1 _ _ _ Hr1). rewrite <- Rplus_assoc, <- quad_plus. f_equal. apply quad_sum_ext. intros a c Ha _.
      pose proof q_pos. pose proof (Hmass a Ha). field. lra.
    - intros l1 Hl1.
      rewrite (step_mean Q C (fun a c => (1 + q) / 2 * vget (vmid (fin1 l1) a) c) (fun a _ => kick a / 2) (fun l2 => mVel (fin (l1 ++ l2))) B).
      + rewrite quad_split, <- Rplus_assoc, <- quad_plus. f_equal. apply quad_sum_ext. intros a c Ha _.
        replace (kick a / 2 * (kick a / 2)) with (kick a * kick a / 4) by field. rewrite (kick_sq a Ha). field.
        pose proof q_pos. pose proof (Hmass a Ha). lra.
      + intros l2 i a c Hl2 Hi Hc. destruct (Hs l1 l2 Hl1 Hl2) as (unif & k & Hst & Hu). destruct (free_step _ _ _ _ _ i a c Hst Hi Hc) as [_ ->].
        apply lookup_lt_Some in Hi. rewrite <- Nat.add_assoc, Hu by lia. done.
  Qed.
End Lang.
