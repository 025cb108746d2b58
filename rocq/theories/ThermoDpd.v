(** Lemmas for NvtDpdVvIntegrator. *)
From Coq Require Import Reals Lra.
From Coquelicot Require Import Coquelicot.
From stdpp Require Import gmap.
From Verif Require Import Base Vec3 BoxSpec OrthoModel OrthoSpec OrthoProofs OrthoProps MonoModel MonoSpec MonoProofs MonoProps.
From Verif Require Import McCellModel DomainModel DomainProofs SpeciesModel SpeciesProofs.
From Verif Require Import CellListModel CellListSpec CellListProofs CellListProps PairListModel PairListSpec PairListProofs PairListProps.
From Verif Require Import EnergyModel EnergySpec EnergyProofs MoveModel MoveSpec MoveProofs EnergyProps MoveProps MdModel MdSpec MdProofs MdForces MdProps ThermoModel ThermoSpec ThermoProofs.
From Coq Require Import Reals Lra.
Local Open Scope R_scope.


Section Dpd.
  Context (y : mdsys) (cap A Pc : nat) (skin cut : R) (n : vec3 Z).
  Context (Ho : md_ok y cap skin cut n).
  Context (kind : nat) (cutoff gamma temp : R) (gauss : nat -> R).
  Context (Hcut : 0 <= cutoff <= cut).

  (** The system with a pair force of any strength between two atoms. *)
  Definition ydpd (c : nat -> nat -> R) : mdsys :=
    MS (yM y) (yB y) (yDr y) (yMask y) (fun _ t1 t2 => c (Z.to_nat t1) (Z.to_nat t2)) (fun _ _ => cutoff * cutoff) (yKinds y) (yExt y)
       (yAtoms y) Z.of_nat (yMass y) (yDt y).
  Lemma ydpd_ok c : (forall i j, c i j = c j i) -> md_ok (ydpd c) cap skin cut n.
  Proof using Ho Hcut.
    intros Hs. destruct Ho as [H1 H2 H3 H4 H5 H6 H7 H8]. split; cbn [ydpd yB yDr yCutsq yFr yMask yAtoms]; try done.
    intros _ _. nra.
  Qed.
  (** The strength of a central force. *)
  Definition strength (c : nat -> nat -> R -> vec3 R -> R) (pos : nat -> vec3 R) (i j : nat) : R :=
    let (rsq, d) := yDr y (pos i) (pos j) in c i j (sqrt rsq) (vscale (/ sqrt rsq) d) / sqrt rsq.
  Lemma ydpd_pf c pos i j : pf (ydpd (strength c pos)) pos i j =
    let (rsq, d) := yDr y (pos i) (pos j) in
    if Rlt_dec rsq (cutoff * cutoff) then let e := vscale (/ sqrt rsq) d in vscale (c i j (sqrt rsq) e) e else V3 0 0 0.
  Proof.
    unfold pf, pair_force. cbn [ydpd yDr yFr yCutsq yTy]. rewrite !Nat2Z.id. unfold strength.
    destruct (yDr y (pos i) (pos j)) as [rsq d]. destruct (Rlt_dec _ _); [|done]. cbv zeta. apply vget_eq. intros k. rewrite !vget_scale. unfold Rdiv. ring.
  Qed.
  Lemma ydpd_part c pos a : pair_part (ydpd (strength c pos)) pos a = central y cutoff c pos a.
  Proof.
    unfold pair_part, central. cbn [ydpd yAtoms yMask]. apply vget_eq. intros k. rewrite !vget_sum. apply sum_ext. intros j _.
    destruct (decide (j = a)); [done|]. destruct (yMask y a j); [done|]. f_equal. apply (ydpd_pf c pos a j).
  Qed.
  Lemma strength_sym c pos : (forall i j r e, c j i r (vscale (-1) e) = c i j r e) -> forall i j, strength c pos i j = strength c pos j i.
  Proof using Ho.
    intros Hc i j. unfold strength. rewrite (y_dr_sym y cap skin cut n Ho (pos i) (pos j)). destruct (yDr y (pos i) (pos j)) as [rsq d]. cbn [fst snd].
    rewrite <- (Hc i j). do 2 f_equal. apply vget_eq. intros k. rewrite !vget_scale. ring.
  Qed.
  Lemma lists_near_ydpd c p pos l : lists_near y cut p pos l -> lists_near (ydpd c) cut p pos l.
  Proof. done. Qed.
  Lemma central_balanced c pos : (forall i j r e, c j i r (vscale (-1) e) = c i j r e) -> balanced y (central y cutoff c pos).
  Proof using Ho Hcut.
    intros Hc. unfold balanced. apply vget_eq. intros k. rewrite vget_sum, vget_zero.
    rewrite <- (pair_part_total (ydpd (strength c pos)) cap skin cut n (ydpd_ok _ (strength_sym c pos Hc)) pos k). apply sum_ext. intros a _. by rewrite ydpd_part.
  Qed.
  (** Sum over the list of pairs. *)
  Definition pair_sum (c : nat -> nat -> R -> vec3 R -> R) (pos : nat -> vec3 R) (l : list (nat * nat)) (a k : nat) : R :=
    sum_over l (fun x => (if decide (x.1 = a) then vget (pf (ydpd (strength c pos)) pos x.1 x.2) k else 0) -
                         (if decide (x.2 = a) then vget (pf (ydpd (strength c pos)) pos x.1 x.2) k else 0)).
  Lemma pair_sum_central c p pos l a k : (forall i j r e, c j i r (vscale (-1) e) = c i j r e) -> lists_near y cut p pos l -> a ∈ yAtoms y ->
    pair_sum c pos l a k = vget (central y cutoff c pos a) k.
  Proof using Ho Hcut.
    intros Hc Hl Ha. rewrite <- (ydpd_part c pos a).
    apply (listed_force (ydpd (strength c pos)) cap skin cut n (ydpd_ok _ (strength_sym c pos Hc)) p pos l a k); done.
  Qed.

  Definition cD (vel : nat -> vec3 R) (i j : nat) (r : R) (e : vec3 R) : R := - (gamma * (weight kind cutoff r)² * vdot (vsub (vel i) (vel j)) e).
  Definition cR (xi : nat -> nat -> R) (i j : nat) (r : R) (_ : vec3 R) : R := dpd_sigma y gamma temp * weight kind cutoff r * xi i j.
  Lemma cD_sym vel i j r e : cD vel j i r (vscale (-1) e) = cD vel i j r e.
  Proof. unfold cD, vdot, vsub, vscale. cbn. ring. Qed.

  Lemma y_rsq_nonneg r q : 0 <= (yDr y r q).1.
  Proof using Ho.
    destruct (mo_b _ _ _ _ _ Ho) as [(b & Hb & _ & ->)|(b & Hb & _ & -> & _)].
    - unfold distanceSq_dr. cbn [fst]. nra.
    - unfold mono_distanceSq_dr. destruct (mono_sep b r q). cbn [fst]. nra.
  Qed.
  Lemma wr_weight rsq : 0 <= rsq -> dpd_wr kind cutoff (sqrt rsq) rsq = weight kind cutoff (sqrt rsq).
  Proof. intros H. unfold dpd_wr, weight. by rewrite sqrt_sqrt. Qed.

  (** One pair. *)
  Lemma dpd_pair_get rand pos vel f i j f' : dpd_pair y kind cutoff gamma temp gauss rand pos vel f i j = Ok f' ->
    (forall a k, vget (dFD f' a) k = vget (dFD f a) k + ((if decide (i = a) then vget (pf (ydpd (strength (cD vel) pos)) pos i j) k else 0) -
        (if decide (j = a) then vget (pf (ydpd (strength (cD vel) pos)) pos i j) k else 0))) /\
    (rand = false -> dFR f' = dFR f /\ dK f' = dK f) /\
    (rand = true -> forall xi, ((yDr y (pos i) (pos j)).1 < cutoff * cutoff -> xi i j = gauss (dK f)) ->
       forall a k, vget (dFR f' a) k = vget (dFR f a) k + ((if decide (i = a) then vget (pf (ydpd (strength (cR xi) pos)) pos i j) k else 0) -
        (if decide (j = a) then vget (pf (ydpd (strength (cR xi) pos)) pos i j) k else 0))) /\
    (rand = true -> if Rlt_dec (yDr y (pos i) (pos j)).1 (cutoff * cutoff) then dK f' = S (dK f) else dK f' = dK f).
  Proof using Ho.
    unfold dpd_pair. rewrite !(ydpd_pf (cD vel)). pose proof (y_rsq_nonneg (pos i) (pos j)) as Hr0.
    assert (HR : forall xi, pf (ydpd (strength (cR xi) pos)) pos i j = _) by (intros xi; apply (ydpd_pf (cR xi) pos i j)).
    destruct (yDr y (pos i) (pos j)) as [rsq d]. cbn [fst] in *. destruct (Rlt_dec rsq (cutoff * cutoff)) as [H|H].
    - destruct (Req_EM_T _ _); [done|]. intros [= <-]. cbn [dFD dFR dK]. split; [|split; [|split]].
      + intros a k. rewrite scatter_get. destruct rand; cbn [dFD]; rewrite wr_weight by done; unfold cD, dot, vdot, Rsqr;
          do 2 f_equal; (destruct (decide _); [|done]); rewrite !vget_scale; cbn [vx vy vz]; ring.
      + intros ->. done.
      + intros -> xi Hxi a k. cbn [dFR]. rewrite HR, scatter_get. unfold cR. rewrite Hxi by done. rewrite wr_weight by done. done.
      + intros ->. done.
    - intros [= <-]. split; [|split; [|split]]; [|done| |done].
      + intros a k. rewrite vget_zero. destruct (decide _), (decide _); ring.
      + intros _ xi _ a k. rewrite HR, vget_zero. destruct (decide _), (decide _); ring.
  Qed.

  (** The loop over pairs.  Each close pair gets its own random number. *)
  Lemma dpd_loop_get rand pos vel (l : list (nat * nat)) f f' : NoDup l ->
    foldM (fun f x => match x with (Some i, Some j) => dpd_pair y kind cutoff gamma temp gauss rand pos vel f i j | _ => UB end) f
      (map (fun x : nat * nat => (Some x.1, Some x.2)) l) = Ok f' ->
    (forall a k, vget (dFD f' a) k = vget (dFD f a) k + pair_sum (cD vel) pos l a k) /\
    (rand = false -> dFR f' = dFR f /\ dK f' = dK f) /\
    (rand = true -> (dK f <= dK f')%nat /\ exists G : nat * nat -> nat,
       (forall x, x ∈ l -> (yDr y (pos x.1) (pos x.2)).1 < cutoff * cutoff -> (dK f <= G x < dK f')%nat) /\
       (forall x x', x ∈ l -> x' ∈ l -> (yDr y (pos x.1) (pos x.2)).1 < cutoff * cutoff -> (yDr y (pos x'.1) (pos x'.2)).1 < cutoff * cutoff -> G x = G x' -> x = x') /\
       forall xi, (forall x, x ∈ l -> xi x.1 x.2 = gauss (G x)) ->
       forall a k, vget (dFR f' a) k = vget (dFR f a) k + pair_sum (cR xi) pos l a k).
  Proof using Ho.
    intros Hnd. revert f. induction Hnd as [|[i j] l Hx Hnd IH]; intros f; cbn [map foldM fst snd].
    - intros [= <-]. split; [|split].
      + intros a k. unfold pair_sum. rewrite sum_nil. ring.
      + done.
      + intros _. split; [lia|]. exists (fun _ => 0%nat). split; [by intros x H%elem_of_nil|]. split; [by intros x x' H%elem_of_nil|].
        intros xi _ a k. unfold pair_sum. rewrite sum_nil. ring.
    - intros (f1 & H1 & H)%obind_Ok. destruct (dpd_pair_get _ _ _ _ _ _ _ H1) as (P1 & P2 & P3 & P4).
      destruct (IH f1 H) as (I1 & I2 & I3). split; [|split].
      + intros a k. rewrite I1, P1. unfold pair_sum. rewrite sum_cons. cbn [fst snd]. ring.
      + intros E. destruct (P2 E) as [<- <-]. by apply I2.
      + intros E. destruct (I3 E) as (L1 & G & G1 & G2 & G3). specialize (P3 E). specialize (P4 E).
        assert (L0 : (dK f <= dK f1)%nat) by (destruct (Rlt_dec _ _); lia).
        split; [lia|]. exists (fun x => if decide (x = (i, j)) then dK f else G x).
        assert (HG : forall x, x ∈ l -> (if decide (x = (i, j)) then dK f else G x) = G x).
        { intros x Hin. rewrite decide_False; [done|]. by intros ->. }
        split; [|split].
        * intros x [->|Hin]%elem_of_cons Hc.
          -- rewrite decide_True by done. cbn [fst snd] in Hc. destruct (Rlt_dec _ _); [lia|done].
          -- rewrite HG by done. specialize (G1 x Hin Hc). lia.
        * intros x x' [->|Hin]%elem_of_cons [->|Hin']%elem_of_cons Hc Hc'; cbn [fst snd] in *; [done| | |].
          -- rewrite decide_True by done. rewrite HG by done. specialize (G1 x' Hin' Hc'). destruct (Rlt_dec _ _); [lia|done].
          -- rewrite HG by done. rewrite decide_True by done. specialize (G1 x Hin Hc). destruct (Rlt_dec _ _); [lia|done].
          -- rewrite !HG by done. by apply G2.
        * intros xi Hxi a k. rewrite (G3 xi); [|intros x Hin; rewrite Hxi by (by right); by rewrite HG].
          rewrite (P3 xi); [|intros _; change (xi i j) with (xi (i, j).1 (i, j).2); rewrite (Hxi (i, j)) by left; by rewrite decide_True].
          unfold pair_sum. rewrite sum_cons. cbn [fst snd]. ring.
  Qed.

  (** What computeDpdForces leaves. *)
  Definition dpd_drawn (pos : nat -> vec3 R) (k0 k1 : nat) (FR : nat -> vec3 R) : Prop :=
    exists G : nat -> nat -> nat, (forall i j, G i j = G j i) /\
      (forall i j, close_pair y cutoff pos i j -> (k0 <= G i j < k1)%nat) /\
      (forall i j i' j', close_pair y cutoff pos i j -> close_pair y cutoff pos i' j' -> G i j = G i' j' -> (i = i' /\ j = j') \/ (i = j' /\ j = i')) /\
      forall a, a ∈ yAtoms y -> FR a = random_force y cutoff (weight kind cutoff) (dpd_sigma y gamma temp) (fun i j => gauss (G i j)) pos a.

  Lemma dpd_forces_spec rand p pos vel f f' : list_built y cap A Pc skin cut p -> pl_isCurrent (bDist (yB y)) pos p = Ok true ->
    dpd_forces y kind cutoff gamma temp gauss rand p pos vel f = Ok f' ->
    (forall a, a ∈ yAtoms y -> dFD f' a = friction y cutoff (weight kind cutoff) gamma pos vel a) /\
    (rand = false -> dFR f' = dFR f /\ dK f' = dK f) /\
    (rand = true -> (dK f <= dK f')%nat /\ dpd_drawn pos (dK f) (dK f') (dFR f')).
  Proof using Ho Hcut.
    intros Hb Hcur. destruct (built_facts y cap A Pc skin cut n Ho p Hb) as [_ Hf]. destruct (Hf pos) as (c & Hc & Hl'). rewrite Hcur in Hc. injection Hc as <-.
    destruct (Hl' eq_refl) as (l & Hln). pose proof Hln as (Hnd & Hin & Hcl & Hit).
    unfold dpd_forces. rewrite Hit. cbn [obind]. intros H. destruct (dpd_loop_get _ _ _ _ _ _ Hnd H) as (H1 & H2 & H3). cbn [dFD dFR dK] in *.
    split; [|split].
    - intros a Ha. apply vget_eq. intros k. rewrite H1, vget_zero, Rplus_0_l. by rewrite (pair_sum_central (cD vel) p pos l a k (cD_sym vel) Hln Ha).
    - intros ->. by apply H2.
    - intros ->. destruct (H3 eq_refl) as (L & G & G1 & G2 & G3). split; [done|].
      set (G' := fun i j => G (Nat.min i j, Nat.max i j)).
      assert (HC : forall i j, close_pair y cutoff pos i j ->
        (Nat.min i j, Nat.max i j) ∈ l /\ (yDr y (pos (Nat.min i j)) (pos (Nat.max i j))).1 < cutoff * cutoff).
      { intros i j (Hi & Hj & Hne & Hm & Hd).
        assert (Hd' : (yDr y (pos (Nat.min i j)) (pos (Nat.max i j))).1 < cutoff * cutoff).
        { destruct (Nat.lt_ge_cases i j) as [Hlt|Hlt]; [by rewrite Nat.min_l, Nat.max_r by lia|].
          rewrite Nat.min_r, Nat.max_l by lia. by rewrite (y_dr_sym y cap skin cut n Ho (pos i) (pos j)). }
        split; [|done]. destruct (decide ((Nat.min i j, Nat.max i j) ∈ l)) as [|Hn]; [done|]. exfalso.
        assert (Hm' : yMask y (Nat.min i j) (Nat.max i j) = false).
        { destruct (Nat.lt_ge_cases i j) as [Hlt|Hlt]; [by rewrite Nat.min_l, Nat.max_r by lia|].
          rewrite Nat.min_r, Nat.max_l by lia. by rewrite (mo_mask _ _ _ _ _ Ho). }
        assert (Hi' : Nat.min i j ∈ yAtoms y) by (destruct (Nat.min_dec i j) as [-> | ->]; done).
        assert (Hj' : Nat.max i j ∈ yAtoms y) by (destruct (Nat.max_dec i j) as [-> | ->]; done).
        specialize (Hcl _ _ Hi' Hj' ltac:(lia) Hm' Hn). rewrite <- (y_dr_dist y cap skin cut n Ho) in Hcl. nra. }
      exists G'. split; [|split; [|split]].
      + intros i j. unfold G'. by rewrite Nat.min_comm, Nat.max_comm.
      + intros i j Hij. destruct (HC i j Hij) as [I1 I2]. by apply G1.
      + intros i j i' j' Hij Hij' E. destruct (HC i j Hij) as [I1 I2]. destruct (HC i' j' Hij') as [J1 J2].
        pose proof (G2 _ _ I1 J1 I2 J2 E) as [= E1 E2]. destruct Hij as (_ & _ & ? & _), Hij' as (_ & _ & ? & _). lia.
      + intros a Ha. apply vget_eq. intros k. rewrite (G3 (fun i j => gauss (G' i j))), vget_zero, Rplus_0_l.
        * rewrite (pair_sum_central (cR (fun i j => gauss (G' i j))) p pos l a k); [done| |done|done].
          intros i j r e. unfold cR, G'. by rewrite Nat.min_comm, Nat.max_comm.
        * intros x Hx. unfold G'. destruct (Hin x Hx) as (_ & _ & Hlt & _). rewrite Nat.min_l, Nat.max_r by lia. by destruct x.
  Qed.
  Lemma friction_balanced pos vel F : (forall a, a ∈ yAtoms y -> F a = friction y cutoff (weight kind cutoff) gamma pos vel a) -> balanced y F.
  Proof using Ho Hcut.
    intros H. pose proof (central_balanced (cD vel) pos (cD_sym vel)) as HB. unfold balanced in *. rewrite <- HB.
    apply vget_eq. intros k. rewrite !vget_sum. apply sum_ext. intros a Ha. by rewrite H.
  Qed.
  Lemma drawn_balanced pos k0 k1 F : dpd_drawn pos k0 k1 F -> balanced y F.
  Proof using Ho Hcut.
    intros (G & G0 & _ & _ & H).
    assert (Hc : forall i j r e, cR (fun i j => gauss (G i j)) j i r (vscale (-1) e) = cR (fun i j => gauss (G i j)) i j r e).
    { intros i j r e. unfold cR. by rewrite G0. }
    pose proof (central_balanced _ pos Hc) as HB. unfold balanced in *. rewrite <- HB.
    apply vget_eq. intros k. rewrite !vget_sum. apply sum_ext. intros a Ha. by rewrite H.
  Qed.
  Lemma total_balanced F f : balanced y F -> balanced y (dFD f) -> balanced y (dFR f) -> balanced y (dpd_total F f).
  Proof using.
    intros H1 H2 H3. unfold balanced in *. apply vget_eq. intros k. rewrite vget_sum, vget_zero.
    rewrite (sum_ext _ (fun a => vget (F a) k + vget (dFD f a) k + vget (dFR f a) k)) by (intros a _; unfold dpd_total; rewrite !vget_add; ring).
    rewrite !EnergyProofs.sum_plus, <- !vget_sum, H1, H2, H3, !vget_zero. ring.
  Qed.

  (** ** Steps *)
  (** A state as setup and every step leave it. *)
  Definition dpd_good (k0 : nat) (s : dpds) : Prop :=
    list_built y cap A Pc skin cut (mX (dM s)) /\
    (forall a, a ∈ yAtoms y -> mFrc (dM s) a = total_force y (mPos (dM s)) a) /\
    (forall a, a ∈ yAtoms y -> dFD (dF s) a = friction y cutoff (weight kind cutoff) gamma (mPos (dM s)) (mVel (dM s)) a) /\
    (k0 <= dK (dF s))%nat /\ dpd_drawn (mPos (dM s)) k0 (dK (dF s)) (dFR (dF s)).
  Local Notation dpd_half := (ThermoSpec.dpd_half y).
  Lemma dpd_step_spec s s' k0 : groups_ok y -> dpd_good k0 s -> nearby y (dpd_half s) ->
    dpd_step y kind cutoff gamma temp gauss s = Ok s' ->
    dpd_good (dK (dF s)) s' /\ same_images (bBrav (yB y)) (yAtoms y) (dpd_half s) (mPos (dM s')) /\ exists fd vel1, dK fd = dK (dF s') /\ dFR fd = dFR (dF s') /\
      (forall a, a ∈ yAtoms y -> vel1 a = vadd (mVel (dM s) a) (vscale (prefactor y a) (dpd_total (mFrc (dM s)) (dF s) a)) /\
         dFD fd a = friction y cutoff (weight kind cutoff) gamma (mPos (dM s')) vel1 a /\
         mVel (dM s') a = vadd (vel1 a) (vscale (prefactor y a) (dpd_total (mFrc (dM s')) fd a))).
  Proof using Ho Hcut.
    intros Hg (G1 & G2 & G3 & G4 & G5) Hn. unfold dpd_step.
    pose proof (integrate1_spec y (dpd_total (mFrc (dM s)) (dF s)) (mPos (dM s)) (mVel (dM s)) (mo_nodup _ _ _ _ _ Ho) _ eq_refl) as H1.
    destruct (integrate1 y (dpd_total (mFrc (dM s)) (dF s)) (mPos (dM s), mVel (dM s))) as [pos1 vel1]. cbn [fst snd] in H1.
    assert (Hh : forall a, a ∈ yAtoms y -> dpd_half s a = pos1 a).
    { intros a Ha. destruct (proj1 (H1 a) Ha) as [E1 ->]. rewrite E1. unfold dpd_half, prefactor.
      do 4 f_equal. unfold Rdiv. rewrite Rinv_mult. lra. }
    assert (Hn1 : nearby y pos1) by (by apply (nearby_ext y (dpd_half s))).
    intros ([[pos2 F2] p2] & Hc & H)%obind_Ok.
    destruct (md_calc_spec y cap A Pc skin cut n Ho _ _ _ _ _ _ Hg G1 Hn1 Hc) as (B2 & N2 & Sm & Cur & HF).
    apply obind_Ok in H as (fd & Hfd & H). apply obind_Ok in H as (fe & Hfe & [= <-]).
    destruct (dpd_forces_spec true p2 pos2 vel1 (dF s) fd B2 Cur Hfd) as (D1 & _ & D2). destruct (D2 eq_refl) as [D3 D4].
    destruct (dpd_forces_spec false p2 pos2 _ fd fe B2 Cur Hfe) as (E1 & E2 & _). destruct (E2 eq_refl) as [E3 E4].
    split; [|split].
    - unfold dpd_good. cbn [dM dF mX mFrc mPos mVel]. rewrite E3, E4. done.
    - cbn [dM mPos]. intros a Ha. rewrite Hh by done. by apply Sm.
    - exists fd, vel1. cbn [dM dF mX mFrc mPos mVel]. split; [done|]. split; [done|]. intros a Ha. split; [by destruct (proj1 (H1 a) Ha)|].
      split; [by apply D1|]. rewrite integrate2_spec by apply (mo_nodup _ _ _ _ _ Ho). by rewrite decide_True.
  Qed.
  Lemma dpd_step_momentum s s' k0 : groups_ok y -> yExt y = None -> (forall a, a ∈ yAtoms y -> yMass y (yTy y a) <> 0) ->
    dpd_good k0 s -> nearby y (dpd_half s) -> dpd_step y kind cutoff gamma temp gauss s = Ok s' -> mtm y (dM s') = mtm y (dM s).
  Proof using Ho Hcut.
    intros Hg He Hm Hs Hn H. destruct (dpd_step_spec s s' k0 Hg Hs Hn H) as ((B1 & B2 & B3 & B4 & B5) & _ & fd & vel1 & K1 & K2 & E).
    destruct Hs as (A1 & A2 & A3 & A4 & A5).
    assert (HB : forall q G, (forall a, a ∈ yAtoms y -> G a = total_force y q a) -> balanced y G).
    { intros q G EE. pose proof (total_force_balanced y cap skin cut n Ho q Hg He) as HH. unfold balanced in *. rewrite <- HH.
      apply vget_eq. intros c. rewrite !vget_sum. apply sum_ext. intros a Ha. by rewrite EE. }
    assert (T1 : balanced y (dpd_total (mFrc (dM s)) (dF s))).
    { apply total_balanced; [by eapply HB|by eapply friction_balanced|by eapply drawn_balanced]. }
    assert (T2 : balanced y (dpd_total (mFrc (dM s')) fd)).
    { apply total_balanced; [by eapply HB| |].
      - apply (friction_balanced (mPos (dM s')) vel1). intros a Ha. apply (E a Ha).
      - rewrite K2. by eapply drawn_balanced. }
    apply vget_eq. intros i. unfold mtm, momentum. rewrite !vget_sum.
    assert (B : forall G, balanced y G -> sum_over (yAtoms y) (fun a => vget (G a) i) = 0).
    { intros G HG. rewrite <- (vget_sum (yAtoms y) G). unfold balanced in HG. by rewrite HG, vget_zero. }
    rewrite (sum_ext _ (fun a => vget (vscale (yMass y (yTy y a)) (mVel (dM s) a)) i +
      yDt y / 2 * (vget (dpd_total (mFrc (dM s)) (dF s) a) i + vget (dpd_total (mFrc (dM s')) fd a) i))).
    - rewrite EnergyProofs.sum_plus, sum_const_mult, EnergyProofs.sum_plus, (B _ T1), (B _ T2). ring.
    - intros a Ha. destruct (E a Ha) as (E1 & _ & E3). rewrite !vget_scale, E3, vget_add, !vget_scale, E1, vget_add, !vget_scale. unfold prefactor. field. by apply Hm.
  Qed.
  Lemma dpd_run_good N s s' k0 : groups_ok y -> dpd_good k0 s -> dpd_run y kind cutoff gamma temp gauss N s = Ok s' ->
    (forall k t, (k < N)%nat -> dpd_run y kind cutoff gamma temp gauss k s = Ok t -> nearby y (dpd_half t)) -> exists k1, (k0 <= k1)%nat /\ dpd_good k1 s'.
  Proof using Ho Hcut.
    intros Hg. revert s k0. induction N as [|N IH]; intros s k0 Hs; cbn [dpd_run].
    - intros [= <-] _. eauto.
    - intros (s1 & H1 & H)%obind_Ok Hn. destruct (dpd_step_spec s s1 k0 Hg Hs (Hn 0%nat s ltac:(lia) eq_refl) H1) as [Hs1 _].
      destruct (IH s1 _ Hs1 H) as (k1 & Hk & Hk'); [|destruct Hs as (_ & _ & _ & ? & _); exists k1; split; [lia|done]].
      intros k t Hk Hr. apply (Hn (S k) t); [lia|]. cbn [dpd_run]. by rewrite H1.
  Qed.
  Lemma dpd_run_momentum N s s' k0 : groups_ok y -> yExt y = None -> (forall a, a ∈ yAtoms y -> yMass y (yTy y a) <> 0) ->
    dpd_good k0 s -> dpd_run y kind cutoff gamma temp gauss N s = Ok s' ->
    (forall k t, (k < N)%nat -> dpd_run y kind cutoff gamma temp gauss k s = Ok t -> nearby y (dpd_half t)) -> mtm y (dM s') = mtm y (dM s).
  Proof using Ho Hcut.
    intros Hg He Hm. revert s k0. induction N as [|N IH]; intros s k0 Hs; cbn [dpd_run].
    - by intros [= <-] _.
    - intros (s1 & H1 & H)%obind_Ok Hn. pose proof (Hn 0%nat s ltac:(lia) eq_refl) as Hn0.
      destruct (dpd_step_spec s s1 k0 Hg Hs Hn0 H1) as [Hs1 _].
      rewrite (IH s1 _ Hs1 H); [by eapply dpd_step_momentum|].
      intros k t Hk Hr. apply (Hn (S k) t); [lia|]. cbn [dpd_run]. by rewrite H1.
  Qed.
  Lemma dpd_setup_good pos vel F p f s : groups_ok y -> pl_state (yM y) cap A Pc skin cut p -> nearby y pos ->
    dpd_setup y kind cutoff gamma temp gauss pos vel F p f = Ok s -> dpd_good (dK f) s /\ forall a, mVel (dM s) a = vel a.
  Proof using Ho Hcut.
    intros Hg Hst Hn. unfold dpd_setup. intros (m & Hm & H)%obind_Ok. apply obind_Ok in H as (f1 & Hf & [= <-]).
    destruct (start_facts y cap A Pc skin cut n pos vel F p m Ho Hg Hst Hn Hm) as (Hb & Hv & Hn1 & HF).
    assert (Hcur : pl_isCurrent (bDist (yB y)) (mPos m) (mX m) = Ok true).
    { revert Hm. unfold md_start. intros ([pos1 p1] & Href & H)%obind_Ok. apply obind_Ok in H as ([[pos2 F2] p2] & Hc & [= <-]). cbn [mPos mX].
      assert (Hb1 : list_built y cap A Pc skin cut p1) by (exists p, pos, pos1; done).
      assert (Hn2 : nearby y pos1).
      { destruct (boundary_facts _ (y_boundary y cap skin cut n Ho)) as [F1 F2' F3 F4 F6 F5]. pose proof (mo_cut _ _ _ _ _ Ho) as Hc0.
        assert (Hat' : forall a, a ∈ yAtoms y -> (a < cap)%nat /\ primary (bGen (yB y) (bWrap (yB y) (pos a)))).
        { intros a Ha. split; [by apply (mo_cap _ _ _ _ _ Ho)|]. by apply F5, Hn. }
        destruct (builds_general (yM y) cap A Pc _ _ _ _ (bBrav (yB y)) (yMask y) skin cut n (yAtoms y) pos p ltac:(lra) F1 F2' F3 Hst
          (mo_grid _ _ _ _ _ Ho) (mo_nodup _ _ _ _ _ Ho) Hat') as [(pos1' & p1' & l & E & Hp & _)|[E _]].
        - rewrite Href in E. injection E as <- <-. intros a Ha. rewrite Hp, decide_True by done. by apply (y_wrap y cap skin cut n Ho), Hn.
        - by rewrite Href in E. }
      by destruct (md_calc_spec y cap A Pc skin cut n Ho p1 pos1 F pos2 F2 p2 Hg Hb1 Hn2 Hc) as (_ & _ & _ & H4 & _). }
    destruct (dpd_forces_spec true _ _ _ f f1 Hb Hcur Hf) as (D1 & _ & D2). destruct (D2 eq_refl) as [D3 D4]. split; [|done].
    unfold dpd_good. cbn [dM dF]. done.
  Qed.

  (** ** Friction takes energy out *)
  Lemma vdot_sum {B} (l : list B) f u : vdot (vsum_over l f) u = sum_over l (fun x => vdot (f x) u).
  Proof.
    unfold vdot, vsum_over. cbn [vx vy vz]. rewrite (Rmult_comm _ (vx u)), (Rmult_comm _ (vy u)), (Rmult_comm _ (vz u)).
    rewrite <- !sum_const_mult, <- !EnergyProofs.sum_plus. apply sum_ext. intros x _. ring.
  Qed.
  Lemma friction_power pos vel :
    2 * sum_over (yAtoms y) (fun a => vdot (friction y cutoff (weight kind cutoff) gamma pos vel a) (vel a)) =
    - gamma * sum_over (yAtoms y) (fun i => sum_over (yAtoms y) (fun j => if decide (j = i) then 0 else if yMask y i j then 0 else
        let (rsq, d) := yDr y (pos i) (pos j) in
        if Rlt_dec rsq (cutoff * cutoff) then (weight kind cutoff (sqrt rsq) * vdot (vsub (vel i) (vel j)) (vscale (/ sqrt rsq) d))² else 0)).
  Proof using Ho Hcut.
    set (h := fun i j => if decide (j = i) then V3 0 0 0 else if yMask y i j then V3 0 0 0 else pf (ydpd (strength (cD vel) pos)) pos i j).
    set (H := fun i j => vdot (h i j) (vel i)).
    assert (E : sum_over (yAtoms y) (fun a => vdot (friction y cutoff (weight kind cutoff) gamma pos vel a) (vel a)) =
                sum_over (yAtoms y) (fun a => sum_over (yAtoms y) (H a))).
    { apply sum_ext. intros a _. change (friction y cutoff (weight kind cutoff) gamma pos vel a) with (central y cutoff (cD vel) pos a). rewrite <- (ydpd_part (cD vel) pos a). unfold pair_part. cbn [ydpd yAtoms yMask]. rewrite vdot_sum. done. }
    rewrite E. replace (2 * sum_over (yAtoms y) (fun a => sum_over (yAtoms y) (H a))) with
      (sum_over (yAtoms y) (fun a => sum_over (yAtoms y) (H a)) + sum_over (yAtoms y) (fun a => sum_over (yAtoms y) (fun j => H j a))).
    2:{ assert (sum_over (yAtoms y) (fun a => sum_over (yAtoms y) (fun j => H j a)) = sum_over (yAtoms y) (fun a => sum_over (yAtoms y) (H a))) as ->
        by exact (sum_swap (fun a j => H j a) (yAtoms y) (yAtoms y)). ring. }
    rewrite <- EnergyProofs.sum_plus, <- sum_const_mult. apply sum_ext. intros i _. rewrite <- EnergyProofs.sum_plus, <- sum_const_mult. apply sum_ext. intros j _.
    unfold H, h. destruct (decide (j = i)) as [->|Hn]; [rewrite decide_True by done; unfold vdot; cbn; ring|].
    rewrite (decide_False (P := i = j)) by congruence. rewrite (mo_mask _ _ _ _ _ Ho j i). destruct (yMask y i j); [unfold vdot; cbn; ring|].
    rewrite (pf_opp (ydpd (strength (cD vel) pos)) cap skin cut n (ydpd_ok _ (strength_sym (cD vel) pos (cD_sym vel))) pos i j).
    rewrite (ydpd_pf (cD vel)). destruct (yDr y (pos i) (pos j)) as [rsq d]. destruct (Rlt_dec _ _); [|unfold vdot; cbn; ring].
    cbv zeta. set (e := vscale (/ sqrt rsq) d). unfold cD, vdot, vscale, vsub, Rsqr. cbn [vx vy vz]. ring.
  Qed.

  (** ** Success *)
  Lemma dpd_loop_total rand pos vel (l : list (nat * nat)) f : (forall x, x ∈ l -> 0 < (yDr y (pos x.1) (pos x.2)).1) ->
    exists f', foldM (fun f x => match x with (Some i, Some j) => dpd_pair y kind cutoff gamma temp gauss rand pos vel f i j | _ => UB end) f
      (map (fun x : nat * nat => (Some x.1, Some x.2)) l) = Ok f'.
  Proof.
    revert f. induction l as [|x l IH]; intros f H; cbn [map foldM]; [eauto|].
    assert (exists f1, dpd_pair y kind cutoff gamma temp gauss rand pos vel f x.1 x.2 = Ok f1) as [f1 ->].
    { unfold dpd_pair. pose proof (H x ltac:(left)) as Hx. destruct (yDr y (pos x.1) (pos x.2)) as [rsq d]. cbn [fst] in Hx.
      destruct (Rlt_dec _ _); [|eauto]. pose proof (sqrt_lt_R0 rsq Hx). cbv zeta. destruct (Req_EM_T _ _); [lra|]. eauto. }
    cbn [obind]. apply IH. intros z Hz. apply H. by right.
  Qed.
  Lemma dpd_forces_total rand p pos vel f : list_built y cap A Pc skin cut p -> pl_isCurrent (bDist (yB y)) pos p = Ok true ->
    (forall i j, i ∈ yAtoms y -> j ∈ yAtoms y -> i <> j -> 0 < (yDr y (pos i) (pos j)).1) ->
    exists f', dpd_forces y kind cutoff gamma temp gauss rand p pos vel f = Ok f'.
  Proof using Ho.
    intros Hb Hcur Hd. destruct (built_facts y cap A Pc skin cut n Ho p Hb) as [_ Hf]. destruct (Hf pos) as (c & Hc & Hl'). rewrite Hcur in Hc. injection Hc as <-.
    destruct (Hl' eq_refl) as (l & Hnd & Hin & Hcl & Hit). unfold dpd_forces. rewrite Hit. cbn [obind]. apply dpd_loop_total.
    intros x Hx. destruct (Hin x Hx) as (I1 & I2 & I3 & _). apply Hd; try done. lia.
  Qed.
  (** A step succeeds if the pair list can be kept or built and no two atoms come to lie at the same place. *)
  Lemma dpd_step_total s k0 : groups_ok y -> dpd_good k0 s -> nearby y (dpd_half s) ->
    (forall q, (forall a, a ∈ yAtoms y -> q a = dpd_half s a) -> exists r, md_list y q (mX (dM s)) = Ok r /\
       forall i j, i ∈ yAtoms y -> j ∈ yAtoms y -> i <> j -> 0 < (yDr y (r.1 i) (r.1 j)).1) ->
    exists s', dpd_step y kind cutoff gamma temp gauss s = Ok s'.
  Proof using Ho.
    intros Hg (G1 & G2 & G3 & G4 & G5) Hn Hl. unfold dpd_step.
    pose proof (integrate1_spec y (dpd_total (mFrc (dM s)) (dF s)) (mPos (dM s)) (mVel (dM s)) (mo_nodup _ _ _ _ _ Ho) _ eq_refl) as H1.
    destruct (integrate1 y (dpd_total (mFrc (dM s)) (dF s)) (mPos (dM s), mVel (dM s))) as [pos1 vel1]. cbn [fst snd] in H1.
    assert (Hh : forall a, a ∈ yAtoms y -> pos1 a = dpd_half s a).
    { intros a Ha. destruct (proj1 (H1 a) Ha) as [E1 ->]. rewrite E1. unfold dpd_half, prefactor.
      do 4 f_equal. unfold Rdiv. rewrite Rinv_mult. lra. }
    assert (Hn1 : nearby y pos1) by (apply (nearby_ext y (dpd_half s)); [|done]; intros a Ha; symmetry; by apply Hh).
    destruct (Hl pos1 Hh) as ([q p2] & Er & Hd). cbn [fst] in Hd.
    destruct (md_calc_total y cap A Pc skin cut n Ho (mX (dM s)) pos1 (mFrc (dM s)) Hg G1 Hn1 ltac:(eauto)) as [[[q' G] x] Hc].
    assert (q' = q /\ x = p2) as [-> ->].
    { revert Hc. unfold md_calc. rewrite Er. cbn [obind]. intros (o & _ & H)%obind_Ok. destruct o as [F1|]; [|done]. by injection H as <- _ <-. }
    destruct (md_calc_spec y cap A Pc skin cut n Ho _ _ _ _ _ _ Hg G1 Hn1 Hc) as (B2 & N2 & Sm & Cur & HF).
    rewrite Hc. cbn [obind].
    destruct (dpd_forces_total true p2 q vel1 (dF s) B2 Cur Hd) as [f1 ->]. cbn [obind].
    destruct (dpd_forces_total false p2 q (integrate2 y (dpd_total G f1) vel1) f1 B2 Cur Hd) as [f2 ->]. cbn [obind]. eauto.
  Qed.
End Dpd.
