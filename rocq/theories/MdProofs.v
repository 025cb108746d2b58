(** Lemmas for molecular dynamics. *)
From Verif Require Import Base Vec3 BoxSpec OrthoModel OrthoSpec MonoModel MonoSpec CellListModel CellListSpec PairListModel PairListSpec EnergyModel EnergySpec EnergyProofs MdModel MdSpec.
From Coq Require Import Reals Lra.
Local Open Scope R_scope.

Lemma vget_add u v i : vget (vadd u v) i = vget u i + vget v i.
Proof. by destruct i as [|[|]]. Qed.
Lemma vget_sub u v i : vget (vsub u v) i = vget u i - vget v i.
Proof. by destruct i as [|[|]]. Qed.
Lemma vget_scale c v i : vget (vscale c v) i = c * vget v i.
Proof. by destruct i as [|[|]]. Qed.
Lemma vget_zero i : vget (V3 0 0 0) i = 0.
Proof. by destruct i as [|[|]]. Qed.
Lemma vget_sum {A} (l : list A) f i : vget (vsum_over l f) i = sum_over l (fun x => vget (f x) i).
Proof. by destruct i as [|[|]]. Qed.
Lemma vget_eq (u v : vec3 R) : (forall i, vget u i = vget v i) -> u = v.
Proof. intros H. apply vec3_ext. auto. Qed.

Lemma move_same F a v : move F a v a = v.
Proof. unfold move. by rewrite decide_True. Qed.
Lemma move_other F a v b : b <> a -> move F a v b = F b.
Proof. intros. unfold move. by rewrite decide_False. Qed.

(** The loops over atoms. *)
Lemma integrate1_spec y F pos vel : NoDup (yAtoms y) ->
  forall s, s = integrate1 y F (pos, vel) ->
  forall a, (a ∈ yAtoms y -> s.2 a = vadd (vel a) (vscale (prefactor y a) (F a)) /\
                             s.1 a = vadd (pos a) (vscale (yDt y) (s.2 a))) /\
            (a ∉ yAtoms y -> s.1 a = pos a /\ s.2 a = vel a).
Proof.
  unfold integrate1. generalize (yAtoms y). intros l Hl. revert pos vel.
  induction Hl as [|x l Hx Hl IH]; intros pos vel s Es a.
  - subst s. split; [by intros H%elem_of_nil|done].
  - cbn [fold_left] in Es. specialize (IH (move pos x (vadd (pos x) (vscale (yDt y) (vadd (vel x) (vscale (prefactor y x) (F x))))))
      (move vel x (vadd (vel x) (vscale (prefactor y x) (F x)))) s Es a).
    destruct IH as [IH1 IH2]. rewrite elem_of_cons. split.
    + destruct (decide (a = x)) as [->|Hn].
      * intros _. destruct (IH2 Hx) as [-> ->]. by rewrite !move_same.
      * intros [?|Ha]; [done|]. destruct (IH1 Ha) as [E1 E2]. rewrite !move_other in * by done. done.
    + intros Hn. destruct IH2 as [-> ->]; [tauto|]. by rewrite !move_other by tauto.
Qed.
Lemma integrate2_spec y F vel : NoDup (yAtoms y) ->
  forall a, integrate2 y F vel a = if decide (a ∈ yAtoms y) then vadd (vel a) (vscale (prefactor y a) (F a)) else vel a.
Proof.
  unfold integrate2. generalize (yAtoms y). intros l Hl. revert vel. induction Hl as [|x l Hx Hl IH]; intros vel a.
  - by rewrite decide_False by apply not_elem_of_nil.
  - cbn [fold_left]. rewrite IH. destruct (decide (a = x)) as [->|Hn].
    + rewrite decide_False by done. rewrite decide_True by left. by rewrite move_same.
    + rewrite move_other by done. destruct (decide (a ∈ l)).
      * by rewrite decide_True by (by right).
      * by rewrite decide_False by (rewrite elem_of_cons; tauto).
Qed.
Lemma zero_forces_spec l F a : zero_forces l F a = if decide (a ∈ l) then V3 0 0 0 else F a.
Proof.
  unfold zero_forces. revert F. induction l as [|x l IH]; intros F; cbn [fold_left].
  - by rewrite decide_False by apply not_elem_of_nil.
  - rewrite IH. destruct (decide (a ∈ l)).
    + by rewrite decide_True by (by right).
    + destruct (decide (a = x)) as [->|].
      * rewrite decide_True by left. by rewrite move_same.
      * rewrite decide_False by (rewrite elem_of_cons; tauto). by rewrite move_other.
Qed.
Lemma ext_forces_spec f l pos ty F a : NoDup l ->
  ext_forces f l pos ty F a = if decide (a ∈ l) then vadd (F a) (f (pos a) (ty a)) else F a.
Proof.
  unfold ext_forces. intros Hl. revert F. induction Hl as [|x l Hx Hl IH]; intros F; cbn [fold_left].
  - by rewrite decide_False by apply not_elem_of_nil.
  - rewrite IH. destruct (decide (a = x)) as [->|Hn].
    + rewrite decide_False by done. rewrite decide_True by left. by rewrite move_same.
    + rewrite move_other by done. destruct (decide (a ∈ l)).
      * by rewrite decide_True by (by right).
      * by rewrite decide_False by (rewrite elem_of_cons; tauto).
Qed.

(** ** Steps of any system *)
Section Steps.
  Context {X : Type} (y : mdsys).
  Context (calc : (nat -> vec3 R) -> (nat -> vec3 R) -> X -> outcome ((nat -> vec3 R) * (nat -> vec3 R) * X)).
  Context (Hnd : NoDup (yAtoms y)).

  (** What one step does. *)
  Lemma vv_step_spec s s' : vv_step y calc s = Ok s' ->
    exists pos1 vel1, calc pos1 (mFrc s) (mX s) = Ok (mPos s', mFrc s', mX s') /\
      (forall a, a ∈ yAtoms y ->
         vel1 a = vadd (mVel s a) (vscale (prefactor y a) (mFrc s a)) /\
         pos1 a = vadd (mPos s a) (vscale (yDt y) (vel1 a)) /\
         mVel s' a = vadd (vel1 a) (vscale (prefactor y a) (mFrc s' a))).
  Proof.
    unfold vv_step. pose proof (integrate1_spec y (mFrc s) (mPos s) (mVel s) Hnd _ eq_refl) as H1.
    destruct (integrate1 y (mFrc s) (mPos s, mVel s)) as [pos1 vel1]. cbn [fst snd] in H1.
    intros ([[pos2 F] x] & Hc & [= <-])%obind_Ok. exists pos1, vel1. split; [done|]. cbn [mPos mFrc mX mVel].
    intros a Ha. destruct (proj1 (H1 a) Ha) as [E1 E2]. split; [done|]. split; [done|].
    rewrite (integrate2_spec y F vel1 Hnd). by rewrite decide_True.
  Qed.
  Lemma vv_run_add n m s : vv_run y calc (n + m) s = obind (vv_run y calc n s) (vv_run y calc m).
  Proof.
    revert s. induction n as [|n IH]; intros s; [done|]. cbn [Nat.add vv_run]. destruct (vv_step y calc s) as [s'| |]; [|done..].
    cbn [obind]. apply IH.
  Qed.
End Steps.

Lemma lattice_add brav m n : vadd (lattice_vector brav m) (lattice_vector brav n) =
  lattice_vector brav (V3 (vx m + vx n) (vy m + vy n) (vz m + vz n))%Z.
Proof.
  apply vget_eq. intros i. unfold lattice_vector, combo. rewrite !vget_add, !vget_scale. unfold vmap. cbn [vx vy vz]. rewrite !plus_IZR. ring.
Qed.
Lemma lattice_opp brav m : vscale (-1) (lattice_vector brav m) = lattice_vector brav (V3 (- vx m) (- vy m) (- vz m))%Z.
Proof.
  apply vget_eq. intros i. unfold lattice_vector, combo. rewrite !vget_scale, !vget_add, !vget_scale. unfold vmap. cbn [vx vy vz]. rewrite !opp_IZR. ring.
Qed.
Lemma lattice_0 brav : lattice_vector brav (V3 0 0 0)%Z = V3 0 0 0.
Proof. apply vget_eq. intros i. unfold lattice_vector, combo. rewrite !vget_add, !vget_scale, vget_zero. cbn. ring. Qed.
Lemma same_refl brav l p : same_images brav l p p.
Proof. intros a _. exists (V3 0 0 0)%Z. rewrite lattice_0. apply vget_eq. intros i. rewrite vget_add, vget_zero. ring. Qed.
Lemma same_sym brav l p q : same_images brav l p q -> same_images brav l q p.
Proof.
  intros H a Ha. destruct (H a Ha) as [m E]. exists (V3 (- vx m) (- vy m) (- vz m))%Z. rewrite E, <- lattice_opp.
  apply vget_eq. intros i. rewrite !vget_add, vget_scale. ring.
Qed.
Lemma same_trans brav l p q r : same_images brav l p q -> same_images brav l q r -> same_images brav l p r.
Proof.
  intros H1 H2 a Ha. destruct (H1 a Ha) as [m E]. destruct (H2 a Ha) as [k E']. exists (V3 (vx m + vx k) (vy m + vy k) (vz m + vz k))%Z.
  rewrite E', E, <- lattice_add. apply vget_eq. intros i. rewrite !vget_add. ring.
Qed.

(** ** Reversal *)
Section Reversal.
  Context {X : Type} (y : mdsys) (brav : vec3 (vec3 R)).
  Context (calc : (nat -> vec3 R) -> (nat -> vec3 R) -> X -> outcome ((nat -> vec3 R) * (nat -> vec3 R) * X)).
  Context (Force : (nat -> vec3 R) -> nat -> vec3 R).
  Context (Inv : X -> Prop) (near good : (nat -> vec3 R) -> Prop).
  Context (Hnd : NoDup (yAtoms y)).
  Context (Hnear : forall p q, (forall a, a ∈ yAtoms y -> p a = q a) -> near p -> near q).
  Context (Hcalc : forall p F x p' F' x', Inv x -> near p -> calc p F x = Ok (p', F', x') ->
             Inv x' /\ same_images brav (yAtoms y) p p' /\ forall a, a ∈ yAtoms y -> F' a = Force p' a).
  Context (Hper : forall p q, good p -> good q -> same_images brav (yAtoms y) p q -> forall a, a ∈ yAtoms y -> Force p a = Force q a).

  (** A state reached in the usual way. *)
  Definition sound (s : mds X) : Prop :=
    Inv (mX s) /\ good (mPos s) /\ forall a, a ∈ yAtoms y -> mFrc s a = Force (mPos s) a.
  (** [t] is [s] with velocities reversed, up to images. *)
  Definition opposite (s t : mds X) : Prop :=
    same_images brav (yAtoms y) (mPos s) (mPos t) /\ forall a, a ∈ yAtoms y -> mVel t a = vscale (-1) (mVel s a) /\ mFrc t a = mFrc s a.

  Lemma half_near (s : mds X) (pos1 vel1 : nat -> vec3 R) : near (half_step y s) ->
    (forall a, a ∈ yAtoms y -> vel1 a = vadd (mVel s a) (vscale (prefactor y a) (mFrc s a)) /\ pos1 a = vadd (mPos s a) (vscale (yDt y) (vel1 a))) ->
    near pos1.
  Proof.
    intros H E. apply (Hnear (half_step y s)); [|done]. intros a Ha. destruct (E a Ha) as [E1 ->]. rewrite E1. unfold half_step, prefactor.
    f_equal. f_equal. f_equal. f_equal. unfold Rdiv. rewrite Rinv_mult. lra.
  Qed.
  Lemma step_sound s s' : sound s -> near (half_step y s) -> good (mPos s') -> vv_step y calc s = Ok s' -> sound s'.
  Proof.
    intros (Hi & Hg & HF) Hn Hg' H. apply (vv_step_spec y calc Hnd) in H as (pos1 & vel1 & Hc & E).
    destruct (Hcalc _ _ _ _ _ _ Hi (half_near s pos1 vel1 Hn ltac:(intros a Ha; destruct (E a Ha) as (? & ? & _); done)) Hc) as (Hi' & Hs & HF').
    by split.
  Qed.
  Lemma step_back s s' t t' : sound s -> near (half_step y s) -> sound s' -> vv_step y calc s = Ok s' ->
    Inv (mX t) -> near (half_step y t) -> good (mPos t') -> opposite s' t -> vv_step y calc t = Ok t' -> opposite s t'.
  Proof.
    intros (Hi & Hg & HF) Hn (Hi1 & Hg1 & HF1) H Hit Hnt Hgt (Ho1 & Ho2) H'.
    apply (vv_step_spec y calc Hnd) in H as (pos1 & vel1 & Hc & E).
    destruct (Hcalc _ _ _ _ _ _ Hi (half_near s pos1 vel1 Hn ltac:(intros a Ha; destruct (E a Ha) as (? & ? & _); done)) Hc) as (_ & Hs & HF').
    apply (vv_step_spec y calc Hnd) in H' as (pos2 & vel2 & Hc' & E').
    destruct (Hcalc _ _ _ _ _ _ Hit (half_near t pos2 vel2 Hnt ltac:(intros a Ha; destruct (E' a Ha) as (? & ? & _); done)) Hc') as (_ & Hs' & HF'').
    assert (Hv : forall a, a ∈ yAtoms y -> vel2 a = vscale (-1) (vel1 a)).
    { intros a Ha. destruct (E a Ha) as (_ & _ & E3). destruct (E' a Ha) as (-> & _). destruct (Ho2 a Ha) as [-> ->]. rewrite E3.
      apply vget_eq. intros i. rewrite !vget_add, !vget_scale, !vget_add, !vget_scale. ring. }
    assert (Hp : same_images brav (yAtoms y) (mPos s) pos2).
    { intros a Ha. destruct (Hs a Ha) as [m Em]. destruct (Ho1 a Ha) as [k Ek]. destruct (E a Ha) as (_ & E2 & _). destruct (E' a Ha) as (_ & E2' & _).
      exists (V3 (vx m + vx k) (vy m + vy k) (vz m + vz k))%Z. rewrite E2', (Hv a Ha), Ek, Em, E2, <- lattice_add.
      apply vget_eq. intros i. rewrite !vget_add, !vget_scale. ring. }
    pose proof (same_trans _ _ _ _ _ Hp Hs') as Hpp.
    assert (Hf : forall a, a ∈ yAtoms y -> mFrc t' a = mFrc s a).
    { intros a Ha. rewrite HF'', HF by done. symmetry. by apply Hper. }
    split; [done|]. intros a Ha. split; [|by apply Hf].
    destruct (E a Ha) as (E1 & _). destruct (E' a Ha) as (_ & _ & ->). rewrite (Hf a Ha), (Hv a Ha), E1.
    apply vget_eq. intros i. rewrite !vget_add, !vget_scale, !vget_add, !vget_scale. ring.
  Qed.

  (** Every step of a run starts from a half-step with atoms near the cell and ends in a good configuration. *)
  Definition tame (n : nat) (s : mds X) : Prop :=
    forall k t, (k <= n)%nat -> vv_run y calc k s = Ok t -> ((k < n)%nat -> near (half_step y t)) /\ good (mPos t).

  Lemma run_sound n s s' : sound s -> tame n s -> vv_run y calc n s = Ok s' -> sound s'.
  Proof.
    revert s. induction n as [|n IH]; intros s Hs Ht; cbn [vv_run]; [by intros [= <-]|].
    intros (s1 & H1 & H)%obind_Ok. apply (IH s1); [|intros k t Hk Hr; destruct (Ht (S k) t) as [H2 H3];
      [lia|cbn [vv_run]; rewrite H1; done|split; [intros; apply H2; lia|done]]|done].
    apply (step_sound s); [done| |destruct (Ht 1%nat s1) as [_ ?]; [lia|cbn; by rewrite H1|done]|done].
    destruct (Ht 0%nat s) as [H2 _]; [lia|done|]. apply H2. lia.
  Qed.
  Lemma opposite_half s t : opposite s t -> same_images brav (yAtoms y) (mPos s) (mPos t).
  Proof. by intros []. Qed.

  Theorem run_back n s s' t : sound s -> tame n s -> vv_run y calc n s = Ok s' ->
    tame n (reversed s') -> vv_run y calc n (reversed s') = Ok t -> opposite s t /\ sound t.
  Proof.
    intros Hs Ht Hr Htb Hb.
    assert (Hs' : sound s') by (by eapply run_sound).
    assert (Hrev : sound (reversed s')) by (destruct Hs' as (? & ? & ?); split; [done|split; done]).
    split; [|by eapply run_sound].
    (* after k steps back the state is opposite to the one before the last k steps *)
    assert (HK : forall k u v, (k <= n)%nat -> vv_run y calc (n - k) s = Ok u -> vv_run y calc k (reversed s') = Ok v -> opposite u v).
    { intros k. induction k as [|k IH]; intros u v Hk Hu Hv.
      - rewrite Nat.sub_0_r, Hr in Hu. injection Hu as <-. cbn [vv_run] in Hv. injection Hv as <-.
        split; [apply same_refl|]. intros a Ha. done.
      - assert (En : (n - k = (n - S k) + 1)%nat) by lia.
        destruct (vv_run y calc (n - k) s) as [u1| |] eqn:Eu1.
        2,3: exfalso; assert (E : (n = (n - k) + k)%nat) by lia; rewrite E, (vv_run_add y calc) in Hr; rewrite Eu1 in Hr; done.
        pose proof Eu1 as Hstep. rewrite En, (vv_run_add y calc), Hu in Hstep. cbn [obind vv_run] in Hstep.
        apply obind_Ok in Hstep as (u1' & Hstep & [= ->]).
        replace (S k) with (k + 1)%nat in Hv by lia. rewrite (vv_run_add y calc) in Hv.
        destruct (vv_run y calc k (reversed s')) as [v1| |] eqn:Ev1; [|done..]. cbn [obind vv_run] in Hv.
        apply obind_Ok in Hv as (v' & Hv & [= ->]).
        assert (Su : sound u).
        { apply (run_sound (n - S k) s); [done| |done]. intros j w Hj Hw. destruct (Ht j w) as [H1 H2]; [lia|done|]. split; [intros; apply H1; lia|done]. }
        assert (Su1 : sound u1).
        { apply (run_sound (n - k) s); [done| |done]. intros j w Hj Hw. destruct (Ht j w) as [H1 H2]; [lia|done|]. split; [intros; apply H1; lia|done]. }
        assert (Sv1 : sound v1).
        { apply (run_sound k (reversed s')); [done| |done]. intros j w Hj Hw. destruct (Htb j w) as [H1 H2]; [lia|done|]. split; [intros; apply H1; lia|done]. }
        apply (step_back u u1 v1 v); [done| |done|done|apply Sv1| | |apply IH; [lia|done|done]|done].
        + destruct (Ht (n - S k)%nat u) as [H1 _]; [lia|done|]. apply H1. lia.
        + destruct (Htb k v1) as [H1 _]; [lia|done|]. apply H1. lia.
        + destruct (Htb (k + 1)%nat v) as [_ H2]; [lia| |done]. rewrite (vv_run_add y calc), Ev1. cbn [obind vv_run]. by rewrite Hv. }
    apply (HK n s t); [lia| |done]. by rewrite Nat.sub_diag.
  Qed.
End Reversal.

(** ** Momentum *)
Section Momentum.
  Context {X : Type} (y : mdsys).
  Context (calc : (nat -> vec3 R) -> (nat -> vec3 R) -> X -> outcome ((nat -> vec3 R) * (nat -> vec3 R) * X)).
  Context (Inv : (nat -> vec3 R) -> X -> Prop) (near : (nat -> vec3 R) -> Prop).
  Context (Hnd : NoDup (yAtoms y)).
  Context (Hnear : forall p q, (forall a, a ∈ yAtoms y -> p a = q a) -> near p -> near q).
  Context (Hmass : forall a, a ∈ yAtoms y -> yMass y (yTy y a) <> 0).
  Definition balanced (F : nat -> vec3 R) : Prop := vsum_over (yAtoms y) F = V3 0 0 0.
  Context (Hcalc : forall p0 p F x p' F' x', Inv p0 x -> near p -> calc p F x = Ok (p', F', x') -> Inv p' x' /\ balanced F').
  Definition mtm (s : mds X) : vec3 R := momentum (fun a => yMass y (yTy y a)) (yAtoms y) (mVel s).

  Lemma sum_const_mult {A} c (l : list A) f : sum_over l (fun x => c * f x) = c * sum_over l f.
  Proof. induction l as [|x l IH]; [rewrite !sum_nil; ring|]. rewrite !sum_cons, IH. ring. Qed.

  Lemma step_momentum s s' : Inv (mPos s) (mX s) -> balanced (mFrc s) -> near (half_step y s) -> vv_step y calc s = Ok s' ->
    Inv (mPos s') (mX s') /\ balanced (mFrc s') /\ mtm s' = mtm s.
  Proof.
    intros Hi Hb Hn H. apply (vv_step_spec y calc Hnd) in H as (pos1 & vel1 & Hc & E).
    destruct (Hcalc _ _ _ _ _ _ _ Hi (half_near y near Hnear s pos1 vel1 Hn ltac:(intros a Ha; destruct (E a Ha) as (? & ? & _); done)) Hc) as (Hi' & Hb').
    split; [done|]. split; [done|]. apply vget_eq. intros i. unfold mtm, momentum. rewrite !vget_sum.
    assert (B : forall G, balanced G -> sum_over (yAtoms y) (fun a => vget (G a) i) = 0).
    { intros G HG. rewrite <- (vget_sum (yAtoms y) G). unfold balanced in HG. by rewrite HG, vget_zero. }
    rewrite (sum_ext _ (fun a => vget (vscale (yMass y (yTy y a)) (mVel s a)) i + yDt y / 2 * (vget (mFrc s a) i + vget (mFrc s' a) i))).
    - rewrite EnergyProofs.sum_plus, sum_const_mult, EnergyProofs.sum_plus, (B _ Hb), (B _ Hb'). ring.
    - intros a Ha. destruct (E a Ha) as (-> & _ & ->). rewrite !vget_scale, !vget_add, !vget_scale. unfold prefactor. field. by apply Hmass.
  Qed.
  Lemma run_momentum n s s' : Inv (mPos s) (mX s) -> balanced (mFrc s) ->
    (forall k t, (k < n)%nat -> vv_run y calc k s = Ok t -> near (half_step y t)) ->
    vv_run y calc n s = Ok s' -> Inv (mPos s') (mX s') /\ balanced (mFrc s') /\ mtm s' = mtm s.
  Proof.
    revert s. induction n as [|n IH]; intros s Hi Hb Ht; cbn [vv_run]; [by intros [= <-]|].
    intros (s1 & H1 & H)%obind_Ok.
    destruct (step_momentum s s1 Hi Hb (Ht 0%nat s ltac:(lia) eq_refl) H1) as (Hi1 & Hb1 & E1).
    destruct (IH s1 Hi1 Hb1) as (? & ? & E2); [|done|by rewrite E2, E1].
    intros k t Hk Hr. apply (Ht (S k) t); [lia|]. cbn [vv_run]. by rewrite H1.
  Qed.
End Momentum.
