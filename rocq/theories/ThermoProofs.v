(** Lemmas for the Nose-Hoover integrators. *)
From Coq Require Import Reals Lra.
From Coquelicot Require Import Coquelicot.
From stdpp Require Import gmap.
From Verif Require Import Base Vec3 BoxSpec OrthoModel CellListModel CellListSpec PairListModel PairListSpec EnergyModel EnergySpec EnergyProofs MdModel MdSpec MdProofs ThermoModel ThermoSpec.
From Coq Require Import Reals Lra.
Local Open Scope R_scope.

(** ** Sums *)
Lemma fold_sum {A} (f : A -> R) (l : list A) x : fold_left (fun s a => s + f a) l x = x + sum_over l f.
Proof. revert x. induction l as [|a l IH]; intros x; cbn [fold_left]; [rewrite sum_nil; ring|]. rewrite IH, sum_cons. ring. Qed.
Lemma kinetic_spec y vel : kinetic y vel = kinetic_energy y vel.
Proof.
  unfold kinetic, kinetic_energy. rewrite (fold_sum (fun a => dot (vel a) (vel a) * yMass y (yTy y a))), Rplus_0_l.
  rewrite <- sum_const_mult. apply sum_ext. intros a _. unfold dot, normSq, vdot. lra.
Qed.
Lemma kinetic_temperature_ext y u v : (forall a, a ∈ yAtoms y -> normSq (u a) = normSq (v a)) -> kinetic_temperature y u = kinetic_temperature y v.
Proof. intros H. unfold kinetic_temperature, kinetic_energy. do 2 f_equal. apply sum_ext. intros a Ha. by rewrite H. Qed.
Lemma normSq_scale c u : normSq (vscale c u) = c * c * normSq u.
Proof. unfold normSq, vdot, vscale. cbn. ring. Qed.
Lemma nh_xidot_spec y tau T vel : nh_xidot y (1 / tau) T vel = (kinetic_temperature y vel / T - 1) / (tau * tau).
Proof.
  unfold nh_xidot, kinetic_temperature. rewrite kinetic_spec, mult_INR. replace (INR 3) with 3 by (cbn; lra).
  replace (kinetic_energy y vel * 2) with (2 * kinetic_energy y vel) by ring. unfold Rdiv. rewrite (Rinv_mult tau tau). ring.
Qed.

(** ** The loops over atoms *)
Lemma nh_integrate1_spec y fac F pos vel : NoDup (yAtoms y) ->
  forall s, s = nh_integrate1 y fac F (pos, vel) ->
  forall a, (a ∈ yAtoms y -> s.2 a = vadd (vscale fac (vel a)) (vscale (prefactor y a) (F a)) /\
                             s.1 a = vadd (pos a) (vscale (yDt y) (s.2 a))) /\
            (a ∉ yAtoms y -> s.1 a = pos a /\ s.2 a = vel a).
Proof.
  unfold nh_integrate1. generalize (yAtoms y). intros l Hl. revert pos vel.
  induction Hl as [|x l Hx Hl IH]; intros pos vel s Es a.
  - subst s. split; [by intros H%elem_of_nil|done].
  - cbn [fold_left] in Es. specialize (IH (move pos x (vadd (pos x) (vscale (yDt y) (vadd (vscale fac (vel x)) (vscale (prefactor y x) (F x))))))
      (move vel x (vadd (vscale fac (vel x)) (vscale (prefactor y x) (F x)))) s Es a).
    destruct IH as [IH1 IH2]. rewrite elem_of_cons. split.
    + destruct (decide (a = x)) as [->|Hn].
      * intros _. destruct (IH2 Hx) as [-> ->]. by rewrite !move_same.
      * intros [?|Ha]; [done|]. destruct (IH1 Ha) as [E1 E2]. rewrite !move_other in * by done. done.
    + intros Hn. destruct IH2 as [-> ->]; [tauto|]. by rewrite !move_other by tauto.
Qed.
Lemma nh_integrate2_spec y fac F vel : NoDup (yAtoms y) ->
  forall a, nh_integrate2 y fac F vel a = if decide (a ∈ yAtoms y) then vscale fac (vadd (vel a) (vscale (prefactor y a) (F a))) else vel a.
Proof.
  unfold nh_integrate2. generalize (yAtoms y). intros l Hl. revert vel. induction Hl as [|x l Hx Hl IH]; intros vel a.
  - by rewrite decide_False by apply not_elem_of_nil.
  - cbn [fold_left]. rewrite IH. destruct (decide (a = x)) as [->|Hn].
    + rewrite decide_False by done. rewrite decide_True by left. by rewrite move_same.
    + rewrite move_other by done. destruct (decide (a ∈ l)).
      * by rewrite decide_True by (by right).
      * by rewrite decide_False by (rewrite elem_of_cons; tauto).
Qed.

(** ** Running back, for any kind of steps *)
Section Back.
  Context {S : Type} (step : S -> outcome S) (run : nat -> S -> outcome S).
  Context (run_0 : forall s, run 0 s = Ok s) (run_S : forall n s, run (Datatypes.S n) s = obind (step s) (run n)).
  Context (sound P Q : S -> Prop) (opp : S -> S -> Prop).
  Context (Hsound : forall s s', sound s -> Q s -> P s' -> step s = Ok s' -> sound s').
  Context (Hback : forall s s' t t', sound s -> Q s -> sound s' -> step s = Ok s' -> sound t -> Q t -> P t' -> opp s' t -> step t = Ok t' -> opp s t').

  Lemma gen_run_add n m s : run (n + m) s = obind (run n s) (run m).
  Proof using run_0 run_S.
    revert s. induction n as [|n IH]; intros s; [by rewrite run_0|]. cbn [Nat.add]. rewrite !run_S. destruct (step s) as [s'| |]; [|done..].
    cbn [obind]. apply IH.
  Qed.
  Definition gen_tame (n : nat) (s : S) : Prop := forall k t, (k <= n)%nat -> run k s = Ok t -> ((k < n)%nat -> Q t) /\ P t.
  Lemma gen_run_sound n s s' : sound s -> gen_tame n s -> run n s = Ok s' -> sound s'.
  Proof using run_0 run_S Hsound.
    revert s. induction n as [|n IH]; intros s Hs Ht; [rewrite run_0; by intros [= <-]|]. rewrite run_S.
    intros (s1 & H1 & H)%obind_Ok. apply (IH s1); [|intros k t Hk Hr; destruct (Ht (Datatypes.S k) t) as [H2 H3];
      [lia|rewrite run_S, H1; done|split; [intros; apply H2; lia|done]]|done].
    apply (Hsound s); [done| |destruct (Ht 1%nat s1) as [_ ?]; [lia|by (rewrite run_S, H1; cbn [obind]; rewrite run_0)|done]|done].
    destruct (Ht 0%nat s) as [H2 _]; [lia|by rewrite run_0|]. apply H2. lia.
  Qed.
  Lemma gen_run_back n s s' r t : sound s -> gen_tame n s -> run n s = Ok s' -> opp s' r -> sound r ->
    gen_tame n r -> run n r = Ok t -> opp s t /\ sound t.
  Proof using run_0 run_S Hsound Hback.
    intros Hs Ht Hr Ho Hrev Htb Hb.
    split; [|by eapply gen_run_sound].
    assert (HK : forall k u v, (k <= n)%nat -> run (n - k) s = Ok u -> run k r = Ok v -> opp u v).
    { intros k. induction k as [|k IH]; intros u v Hk Hu Hv.
      - rewrite Nat.sub_0_r, Hr in Hu. injection Hu as <-. rewrite run_0 in Hv. by injection Hv as <-.
      - assert (En : (n - k = (n - Datatypes.S k) + 1)%nat) by lia.
        destruct (run (n - k) s) as [u1| |] eqn:Eu1.
        2,3: exfalso; assert (E : (n = (n - k) + k)%nat) by lia; rewrite E, gen_run_add in Hr; rewrite Eu1 in Hr; done.
        pose proof Eu1 as Hstep. rewrite En, gen_run_add, Hu in Hstep. cbn [obind] in Hstep. rewrite run_S in Hstep.
        apply obind_Ok in Hstep as (u1' & Hstep & E1). rewrite run_0 in E1. injection E1 as ->.
        replace (Datatypes.S k) with (k + 1)%nat in Hv by lia. rewrite gen_run_add in Hv.
        destruct (run k r) as [v1| |] eqn:Ev1; [|done..]. cbn [obind] in Hv. rewrite run_S in Hv.
        apply obind_Ok in Hv as (v' & Hv & E2). rewrite run_0 in E2. injection E2 as ->.
        assert (Su : sound u).
        { apply (gen_run_sound (n - Datatypes.S k) s); [done| |done]. intros j w Hj Hw. destruct (Ht j w) as [H1 H2]; [lia|done|]. split; [intros; apply H1; lia|done]. }
        assert (Su1 : sound u1).
        { apply (gen_run_sound (n - k) s); [done| |done]. intros j w Hj Hw. destruct (Ht j w) as [H1 H2]; [lia|done|]. split; [intros; apply H1; lia|done]. }
        assert (Sv1 : sound v1).
        { apply (gen_run_sound k r); [done| |done]. intros j w Hj Hw. destruct (Htb j w) as [H1 H2]; [lia|done|]. split; [intros; apply H1; lia|done]. }
        apply (Hback u u1 v1 v); [done| |done|done|done| | |apply IH; [lia|done|done]|done].
        + destruct (Ht (n - Datatypes.S k)%nat u) as [H1 _]; [lia|done|]. apply H1. lia.
        + destruct (Htb k v1) as [H1 _]; [lia|done|]. apply H1. lia.
        + destruct (Htb (k + 1)%nat v) as [_ H2]; [lia| |done]. rewrite gen_run_add, Ev1. cbn [obind]. rewrite run_S, Hv. cbn [obind]. by rewrite run_0. }
    apply (HK n s t); [lia| |done]. by rewrite Nat.sub_diag, run_0.
  Qed.
End Back.

(** ** Steps of the Nose-Hoover integrator *)
Section Steps.
  Context {X : Type} (y : mdsys) (tau T : R).
  Context (calc : (nat -> vec3 R) -> (nat -> vec3 R) -> X -> outcome ((nat -> vec3 R) * (nat -> vec3 R) * X)).
  Context (Hnd : NoDup (yAtoms y)).

  Lemma nh_step_spec s s' : nh_step y (1 / tau) T calc s = Ok s' ->
    exists pos1 vel1, calc pos1 (mFrc (nS s)) (mX (nS s)) = Ok (mPos (nS s'), mFrc (nS s'), mX (nS s')) /\
      nXd s' = (kinetic_temperature y (mVel (nS s')) / T - 1) / (tau * tau) /\
      nXi s' = nXi s + (nXd s + nXd s') * (yDt y / 2) /\
      (forall a, a ∈ yAtoms y ->
         vel1 a = vadd (vscale (nh_factor y (nXi s) (nXd s)) (mVel (nS s) a)) (vscale (prefactor y a) (mFrc (nS s) a)) /\
         pos1 a = vadd (mPos (nS s) a) (vscale (yDt y) (vel1 a)) /\
         mVel (nS s') a = vscale (nh_factor y (nXi s) (nXd s)) (vadd (vel1 a) (vscale (prefactor y a) (mFrc (nS s') a)))).
  Proof using Hnd.
    unfold nh_step. cbv zeta. set (fac := nh_factor y (nXi s) (nXd s)).
    pose proof (nh_integrate1_spec y fac (mFrc (nS s)) (mPos (nS s)) (mVel (nS s)) Hnd _ eq_refl) as H1.
    destruct (nh_integrate1 y fac (mFrc (nS s)) (mPos (nS s), mVel (nS s))) as [pos1 vel1]. cbn [fst snd] in H1.
    intros ([[pos2 F] x] & Hc & [= <-])%obind_Ok. exists pos1, vel1. cbn [nS nXi nXd mPos mFrc mX mVel]. split; [done|].
    split; [apply nh_xidot_spec|]. split; [lra|].
    intros a Ha. destruct (proj1 (H1 a) Ha) as [E1 E2]. split; [done|]. split; [done|].
    rewrite (nh_integrate2_spec y fac F vel1 Hnd). by rewrite decide_True.
  Qed.
  Lemma dd_nh_step_eq s : dd_nh_step y (1 / tau) T calc s = nh_step y (1 / tau) T calc s.
  Proof. reflexivity. Qed.
End Steps.

Section Reversal.
  Context {X : Type} (y : mdsys) (tau T : R) (brav : vec3 (vec3 R)).
  Context (calc : (nat -> vec3 R) -> (nat -> vec3 R) -> X -> outcome ((nat -> vec3 R) * (nat -> vec3 R) * X)).
  Context (Force : (nat -> vec3 R) -> nat -> vec3 R).
  Context (Inv : X -> Prop) (near good : (nat -> vec3 R) -> Prop).
  Context (Hnd : NoDup (yAtoms y)).
  Context (Hnear : forall p q, (forall a, a ∈ yAtoms y -> p a = q a) -> near p -> near q).
  Context (Hcalc : forall p F x p' F' x', Inv x -> near p -> calc p F x = Ok (p', F', x') ->
             Inv x' /\ same_images brav (yAtoms y) p p' /\ forall a, a ∈ yAtoms y -> F' a = Force p' a).
  Context (Hper : forall p q, good p -> good q -> same_images brav (yAtoms y) p q -> forall a, a ∈ yAtoms y -> Force p a = Force q a).

  Definition nh_sound (s : nhs X) : Prop := sound y Force Inv good (nS s) /\ nh_consistent y tau T s.
  Definition nh_opposite (s t : nhs X) : Prop := opposite y brav (nS s) (nS t) /\ nXi t = - nXi s /\ nXd t = nXd s.
  Definition nh_near (s : nhs X) : Prop := near (nh_half y (nh_factor y (nXi s) (nXd s)) (nS s)).

  Lemma nh_half_near (s : nhs X) (pos1 vel1 : nat -> vec3 R) : nh_near s ->
    (forall a, a ∈ yAtoms y -> vel1 a = vadd (vscale (nh_factor y (nXi s) (nXd s)) (mVel (nS s) a)) (vscale (prefactor y a) (mFrc (nS s) a)) /\
       pos1 a = vadd (mPos (nS s) a) (vscale (yDt y) (vel1 a))) ->
    near pos1.
  Proof using Hnear.
    intros H E. apply (Hnear (nh_half y (nh_factor y (nXi s) (nXd s)) (nS s))); [|done]. intros a Ha. destruct (E a Ha) as [E1 ->]. rewrite E1. unfold nh_half, prefactor.
    f_equal. f_equal. f_equal. f_equal. unfold Rdiv. rewrite Rinv_mult. lra.
  Qed.
  Lemma nh_step_sound s s' : nh_sound s -> nh_near s -> good (mPos (nS s')) -> nh_step y (1 / tau) T calc s = Ok s' -> nh_sound s'.
  Proof using Hnd Hnear Hcalc.
    intros ((Hi & Hg & HF) & _) Hn Hg' H. apply (nh_step_spec y tau T calc Hnd) in H as (pos1 & vel1 & Hc & Ed & _ & E).
    destruct (Hcalc _ _ _ _ _ _ Hi (nh_half_near s pos1 vel1 Hn ltac:(intros a Ha; destruct (E a Ha) as (? & ? & _); done)) Hc) as (Hi' & Hs & HF').
    split; [by split|]. done.
  Qed.
  Lemma nh_step_back s s' t t' : nh_sound s -> nh_near s -> nh_sound s' -> nh_step y (1 / tau) T calc s = Ok s' ->
    nh_sound t -> nh_near t -> good (mPos (nS t')) -> nh_opposite s' t -> nh_step y (1 / tau) T calc t = Ok t' -> nh_opposite s t'.
  Proof using Hnd Hnear Hcalc Hper.
    intros ((Hi & Hg & HF) & Cs) Hn ((Hi1 & Hg1 & HF1) & _) H ((Hit & _ & _) & _) Hnt Hgt ((Ho1 & Ho2) & Ox & Od) H'.
    apply (nh_step_spec y tau T calc Hnd) in H as (pos1 & vel1 & Hc & Ed & Ex & E).
    destruct (Hcalc _ _ _ _ _ _ Hi (nh_half_near s pos1 vel1 Hn ltac:(intros a Ha; destruct (E a Ha) as (? & ? & _); done)) Hc) as (_ & Hs & HF').
    apply (nh_step_spec y tau T calc Hnd) in H' as (pos2 & vel2 & Hc' & Ed' & Ex' & E').
    destruct (Hcalc _ _ _ _ _ _ Hit (nh_half_near t pos2 vel2 Hnt ltac:(intros a Ha; destruct (E' a Ha) as (? & ? & _); done)) Hc') as (_ & Hs' & HF'').
    set (fac := nh_factor y (nXi s) (nXd s)) in *. set (fac' := nh_factor y (nXi t) (nXd t)) in *.
    assert (Hff : fac' * fac = 1).
    { unfold fac, fac', nh_factor. rewrite <- exp_plus, Ox, Od, Ex. transitivity (exp 0); [|apply exp_0]. f_equal. field. }
    assert (Hv : forall a, a ∈ yAtoms y -> vel2 a = vscale (-1) (vel1 a)).
    { intros a Ha. destruct (E a Ha) as (_ & _ & E3). destruct (E' a Ha) as (-> & _). destruct (Ho2 a Ha) as [-> ->]. rewrite E3.
      apply vget_eq. intros i. rewrite !vget_add, !vget_scale, !vget_add, !vget_scale.
      transitivity (- (fac' * fac) * (vget (vel1 a) i + prefactor y a * vget (mFrc (nS s') a) i) + prefactor y a * vget (mFrc (nS s') a) i); [ring|]. rewrite Hff. ring. }
    assert (Hp : same_images brav (yAtoms y) (mPos (nS s)) pos2).
    { intros a Ha. destruct (Hs a Ha) as [m Em]. destruct (Ho1 a Ha) as [k Ek]. destruct (E a Ha) as (_ & E2 & _). destruct (E' a Ha) as (_ & E2' & _).
      exists (V3 (vx m + vx k) (vy m + vy k) (vz m + vz k))%Z. rewrite E2', (Hv a Ha), Ek, Em, E2, <- lattice_add.
      apply vget_eq. intros i. rewrite !vget_add, !vget_scale. ring. }
    pose proof (same_trans _ _ _ _ _ Hp Hs') as Hpp.
    assert (Hf : forall a, a ∈ yAtoms y -> mFrc (nS t') a = mFrc (nS s) a).
    { intros a Ha. rewrite HF'', HF by done. symmetry. by apply Hper. }
    assert (Hvv : forall a, a ∈ yAtoms y -> mVel (nS t') a = vscale (-1) (mVel (nS s) a)).
    { intros a Ha. destruct (E a Ha) as (E1 & _). destruct (E' a Ha) as (_ & _ & ->). rewrite (Hf a Ha), (Hv a Ha), E1.
      apply vget_eq. intros i. rewrite !vget_scale, !vget_add, !vget_scale, !vget_add, !vget_scale.
      transitivity (- (fac' * fac) * vget (mVel (nS s) a) i); [ring|]. rewrite Hff. ring. }
    assert (Hd : nXd t' = nXd s).
    { rewrite Ed', Cs. rewrite (kinetic_temperature_ext y (mVel (nS t')) (mVel (nS s))); [done|]. intros a Ha. rewrite Hvv by done. rewrite normSq_scale. ring. }
    split; [|split; [|done]].
    - split; [done|]. intros a Ha. split; [by apply Hvv|by apply Hf].
    - rewrite Ex', Hd, Ox, Od, Ex. ring.
  Qed.

  Lemma nh_run_S n s : nh_run y (1 / tau) T calc (S n) s = obind (nh_step y (1 / tau) T calc s) (nh_run y (1 / tau) T calc n).
  Proof. done. Qed.
  Definition nh_tame (n : nat) (s : nhs X) : Prop :=
    forall k t, (k <= n)%nat -> nh_run y (1 / tau) T calc k s = Ok t -> ((k < n)%nat -> nh_near t) /\ good (mPos (nS t)).
  Lemma nh_run_back n s s' t : nh_sound s -> nh_tame n s -> nh_run y (1 / tau) T calc n s = Ok s' ->
    nh_tame n (nh_reversed s') -> nh_run y (1 / tau) T calc n (nh_reversed s') = Ok t -> nh_opposite s t.
  Proof using Hnd Hnear Hcalc Hper.
    intros Hs Ht Hr Htb Hb.
    assert (Hs' : nh_sound s').
    { apply (gen_run_sound (nh_step y (1 / tau) T calc) (nh_run y (1 / tau) T calc) (fun s => eq_refl) nh_run_S nh_sound (fun t => good (mPos (nS t))) nh_near nh_step_sound n s); done. }
    destruct (gen_run_back (nh_step y (1 / tau) T calc) (nh_run y (1 / tau) T calc) (fun s => eq_refl) nh_run_S nh_sound (fun t => good (mPos (nS t))) nh_near nh_opposite
      nh_step_sound nh_step_back n s s' (nh_reversed s') t) as [H _]; try done.
    - split; [|done]. split; [apply same_refl|done].
    - destruct Hs' as ((? & ? & ?) & C). split; [by split|]. unfold nh_consistent in *. cbn [nh_reversed nXd nS]. rewrite C.
      rewrite (kinetic_temperature_ext y (mVel (reversed (nS s'))) (mVel (nS s'))); [done|]. intros a Ha. cbn [reversed mVel]. rewrite normSq_scale. ring.
  Qed.
End Reversal.

(** ** Momentum of the Nose-Hoover integrator *)
Section Momentum.
  Context {X : Type} (y : mdsys) (tau T : R).
  Context (calc : (nat -> vec3 R) -> (nat -> vec3 R) -> X -> outcome ((nat -> vec3 R) * (nat -> vec3 R) * X)).
  Context (Inv : X -> Prop) (near : (nat -> vec3 R) -> Prop).
  Context (Hnd : NoDup (yAtoms y)).
  Context (Hnear : forall p q, (forall a, a ∈ yAtoms y -> p a = q a) -> near p -> near q).
  Context (Hmass : forall a, a ∈ yAtoms y -> yMass y (yTy y a) <> 0).
  Context (Hcalc : forall p F x p' F' x', Inv x -> near p -> calc p F x = Ok (p', F', x') -> Inv x' /\ balanced y F').

  Lemma nh_step_momentum s s' : Inv (mX (nS s)) -> balanced y (mFrc (nS s)) -> nh_near y near s -> nh_step y (1 / tau) T calc s = Ok s' ->
    Inv (mX (nS s')) /\ balanced y (mFrc (nS s')) /\
    mtm y (nS s') = vscale ((nh_factor y (nXi s) (nXd s))²) (mtm y (nS s)).
  Proof using Hnd Hnear Hmass Hcalc.
    intros Hi Hb Hn H. apply (nh_step_spec y tau T calc Hnd) in H as (pos1 & vel1 & Hc & _ & _ & E).
    destruct (Hcalc _ _ _ _ _ _ Hi (nh_half_near y near Hnear s pos1 vel1 Hn ltac:(intros a Ha; destruct (E a Ha) as (? & ? & _); done)) Hc) as (Hi' & Hb').
    split; [done|]. split; [done|]. set (fac := nh_factor y (nXi s) (nXd s)) in *. apply vget_eq. intros i. rewrite vget_scale. unfold mtm, momentum. rewrite !vget_sum.
    assert (B : forall G, balanced y G -> sum_over (yAtoms y) (fun a => vget (G a) i) = 0).
    { intros G HG. rewrite <- (vget_sum (yAtoms y) G). unfold balanced in HG. by rewrite HG, vget_zero. }
    rewrite (sum_ext _ (fun a => fac² * vget (vscale (yMass y (yTy y a)) (mVel (nS s) a)) i + yDt y / 2 * fac * (vget (mFrc (nS s) a) i + vget (mFrc (nS s') a) i))).
    - rewrite EnergyProofs.sum_plus, !sum_const_mult, EnergyProofs.sum_plus, (B _ Hb), (B _ Hb'). ring.
    - intros a Ha. destruct (E a Ha) as (E1 & _ & E3). rewrite !vget_scale, E3, !vget_scale, vget_add, !vget_scale, E1, vget_add, !vget_scale. unfold prefactor, Rsqr. field. by apply Hmass.
  Qed.
  (** The momentum is multiplied by a positive number. *)
  Lemma nh_run_momentum n s s' : Inv (mX (nS s)) -> balanced y (mFrc (nS s)) ->
    (forall k t, (k < n)%nat -> nh_run y (1 / tau) T calc k s = Ok t -> nh_near y near t) ->
    nh_run y (1 / tau) T calc n s = Ok s' -> exists c, 0 < c /\ mtm y (nS s') = vscale c (mtm y (nS s)).
  Proof using Hnd Hnear Hmass Hcalc.
    revert s. induction n as [|n IH]; intros s Hi Hb Ht; cbn [nh_run].
    - intros [= <-]. exists 1. split; [lra|]. apply vget_eq. intros i. rewrite vget_scale. ring.
    - intros (s1 & H1 & H)%obind_Ok.
      destruct (nh_step_momentum s s1 Hi Hb (Ht 0%nat s ltac:(lia) eq_refl) H1) as (Hi1 & Hb1 & E1).
      destruct (IH s1 Hi1 Hb1) as (c & Hc & E2); [|done|].
      + intros k t Hk Hr. apply (Ht (S k) t); [lia|]. cbn [nh_run]. by rewrite H1.
      + exists (c * (nh_factor y (nXi s) (nXd s))²). split.
        * apply Rmult_lt_0_compat; [done|]. apply Rsqr_pos_lt. unfold nh_factor. pose proof (exp_pos (- (1 / 2 * yDt y) * (nXi s + nXd s * (1 / 2 * yDt y)))). lra.
        * rewrite E2, E1. apply vget_eq. intros i. rewrite !vget_scale. ring.
  Qed.
End Momentum.
