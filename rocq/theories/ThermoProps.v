(** Properties C90 to C93: thermostats and archives of integrators. *)
From Coq Require Import Reals Lra.
From Coquelicot Require Import Coquelicot.
From stdpp Require Import gmap.
From Verif Require Import Base Vec3 BoxSpec OrthoModel OrthoSpec OrthoProofs OrthoProps MonoModel MonoSpec MonoProofs MonoProps.
From Verif Require Import McCellModel DomainModel DomainProofs SpeciesModel SpeciesProofs.
From Verif Require Import CellListModel CellListSpec CellListProofs CellListProps PairListModel PairListSpec PairListProofs PairListProps.
From Verif Require Import EnergyModel EnergySpec EnergyProofs MoveModel MoveSpec MoveProofs EnergyProps MoveProps MdModel MdSpec MdProofs MdForces MdProps.
From Verif Require Import ThermoModel ThermoSpec ThermoProofs ThermoDpd ThermoLang ThermoArch.
From Coq Require Import Reals Lra.
Local Open Scope R_scope.

(** ** C90: Nose-Hoover *)

(** C90: the equations of motion.  For any way of computing forces, a step of either program moves the velocities, positions
    and the friction coefficient xi by the same formulas, and leaves behind the rate of xi that belongs to the velocities:
    (T_kinetic/T - 1)/tau^2, with T_kinetic of equipartition. *)
Theorem nose_hoover_step :
  forall (X : Type) (y : mdsys) tau T
         (calc : (nat -> vec3 R) -> (nat -> vec3 R) -> X -> outcome ((nat -> vec3 R) * (nat -> vec3 R) * X)) s s',
  NoDup (yAtoms y) -> nh_step y (1 / tau) T calc s = Ok s' ->
  dd_nh_step y (1 / tau) T calc s = Ok s' /\ nh_consistent y tau T s' /\
  nXi s' = nXi s + (nXd s + nXd s') * (yDt y / 2) /\
  exists pos1, calc pos1 (mFrc (nS s)) (mX (nS s)) = Ok (mPos (nS s'), mFrc (nS s'), mX (nS s')) /\
    let fac := exp (- (yDt y / 2 * (nXi s + yDt y / 2 * nXd s))) in
    forall a, a ∈ yAtoms y ->
      let acc F := vscale (yDt y / (2 * yMass y (yTy y a))) (F a) in
      let v1 := vadd (vscale fac (mVel (nS s) a)) (acc (mFrc (nS s))) in
      pos1 a = vadd (mPos (nS s) a) (vscale (yDt y) v1) /\ mVel (nS s') a = vscale fac (vadd v1 (acc (mFrc (nS s')))).
Proof.
  intros X y tau T calc s s' Hnd H. split; [by rewrite dd_nh_step_eq|].
  apply (nh_step_spec y tau T calc Hnd) in H as (pos1 & vel1 & Hc & Ed & Ex & E). split; [done|]. split; [done|].
  exists pos1. split; [done|]. cbv zeta. intros a Ha. destruct (E a Ha) as (E1 & E2 & E3).
  replace (exp (- (yDt y / 2 * (nXi s + yDt y / 2 * nXd s)))) with (nh_factor y (nXi s) (nXd s)) by (unfold nh_factor; f_equal; field).
  assert (Hp : yDt y / (2 * yMass y (yTy y a)) = prefactor y a) by (unfold prefactor, Rdiv; rewrite Rinv_mult; lra).
  rewrite Hp, <- E1. done.
Qed.

(** C90: reversal, any system: if forces depend only on the positions up to lattice translations, then running N steps,
    changing the signs of the velocities and of xi, and running N steps returns to the start with the signs changed. *)
Theorem nose_hoover_reversible_general :
  forall (X : Type) (y : mdsys) tau T brav
         (calc : (nat -> vec3 R) -> (nat -> vec3 R) -> X -> outcome ((nat -> vec3 R) * (nat -> vec3 R) * X))
         (Force : (nat -> vec3 R) -> nat -> vec3 R) N s s' t,
  NoDup (yAtoms y) ->
  (forall p F x p' F' x', calc p F x = Ok (p', F', x') ->
     same_images brav (yAtoms y) p p' /\ forall a, a ∈ yAtoms y -> F' a = Force p' a) ->
  (forall p q, same_images brav (yAtoms y) p q -> forall a, a ∈ yAtoms y -> Force p a = Force q a) ->
  (forall a, a ∈ yAtoms y -> mFrc (nS s) a = Force (mPos (nS s)) a) -> nh_consistent y tau T s ->
  nh_run y (1 / tau) T calc N s = Ok s' -> nh_run y (1 / tau) T calc N (nh_reversed s') = Ok t ->
  same_images brav (yAtoms y) (mPos (nS s)) (mPos (nS t)) /\ nXi t = - nXi s /\ nXd t = nXd s /\
  forall a, a ∈ yAtoms y -> mVel (nS t) a = vscale (-1) (mVel (nS s) a) /\ mFrc (nS t) a = mFrc (nS s) a.
Proof.
  intros X y tau T brav calc Force N s s' t Hnd Hc Hp HF Hco Hr Hb.
  destruct (nh_run_back y tau T brav calc Force (fun _ => True) (fun _ => True) (fun _ => True) Hnd) with (n := N) (s := s) (s' := s') (t := t)
    as ((H1 & H2) & H3 & H4); try done.
  - intros p F x p' F' x' _ _ E. split; [done|]. by eapply Hc.
  - intros p q _ _. apply Hp.
Qed.

(** The hypotheses on a run: every step moves atoms by less than a cell and ends in a regular configuration. *)
Definition nh_steady (y : mdsys) (b : ortho) (tau T : R) (N : nat) (s : nhs plist) : Prop :=
  forall k t, (k <= N)%nat -> nh_run y (1 / tau) T (nve_calc y) k s = Ok t ->
    ((k < N)%nat -> nearby y (nh_half y (exp (- (yDt y / 2 * (nXi t + yDt y / 2 * nXd t)))) (nS t))) /\ regular y b (mPos (nS t)).
Lemma nh_factor_eq y xi xd : exp (- (yDt y / 2 * (xi + yDt y / 2 * xd))) = nh_factor y xi xd.
Proof. unfold nh_factor. f_equal. field. Qed.

(** C90: reversal of an MdSystem in an orthorhombic box, set up by NvtNhIntegrator::setup. *)
Theorem nose_hoover_reversible :
  forall y b cap A Pc skin cut n tau T pos vel F p m N s' t,
  md_ok y cap skin cut n -> groups_ok y -> a_box b -> yB y = ortho_bd b -> yDr y = distanceSq_dr b ->
  (forall i, (i < 3)%nat -> cut <= vget (oLen b) i / 2) -> (forall k, k ∈ yKinds y -> geometric y k) ->
  (forall f r m t, yExt y = Some f -> f (vadd r (lattice_vector (oBrav b) m)) t = f r t) ->
  pl_state (yM y) cap A Pc skin cut p -> nearby y pos -> md_start y pos vel F p = Ok m ->
  let s := nh_setup y (1 / tau) T m in
  nh_run y (1 / tau) T (nve_calc y) N s = Ok s' -> nh_run y (1 / tau) T (nve_calc y) N (nh_reversed s') = Ok t ->
  nh_steady y b tau T N s -> nh_steady y b tau T N (nh_reversed s') ->
  same_images (oBrav b) (yAtoms y) (mPos m) (mPos (nS t)) /\ nXi t = 0 /\
  forall a, a ∈ yAtoms y -> mVel (nS t) a = vscale (-1) (vel a) /\ mFrc (nS t) a = mFrc m a.
Proof.
  intros y b cap A Pc skin cut n tau T pos vel F p m N s' t Ho Hg Hb HB Hdr Hcut Hgeo Hext Hst Hn Hs s Hr Hr' S1 S2.
  destruct (start_facts y cap A Pc skin cut n pos vel F p m Ho Hg Hst Hn Hs) as (Hbl & Hv & _ & HF).
  assert (HT : forall k u, nh_steady y b tau T k u -> nh_tame y tau T (nve_calc y) (nearby y) (regular y b) k u).
  { intros k u H j v Hj Hv'. destruct (H j v Hj Hv') as [H1 H2]. split; [|done]. intros Hlt. specialize (H1 Hlt). rewrite nh_factor_eq in H1. done. }
  destruct (nh_run_back y tau T (oBrav b) (nve_calc y) (total_force y) (list_built y cap A Pc skin cut) (nearby y) (regular y b) (mo_nodup _ _ _ _ _ Ho) (nearby_ext y))
    with (n := N) (s := s) (s' := s') (t := t) as [[H1 H2] [H3 H4]]; try done; try (by apply HT).
  - intros q G x q' G' x' Hx Hq Hc. destruct (nve_calc_spec y cap A Pc skin cut n x q G q' G' x' Ho Hg Hx Hq Hc) as (E1 & E2 & E3).
    rewrite HB in E2. done.
  - intros q q' Hq Hq' Hsm. by apply (total_force_images y b cap skin cut n).
  - split; [|unfold nh_consistent, s, nh_setup; cbn [nXd nS]; apply nh_xidot_spec]. split; [done|]. split; [|done]. by apply (S1 0%nat s); [lia|].
  - split; [done|]. split; [rewrite H3; unfold s, nh_setup; cbn [nXi]; ring|]. intros a Ha. destruct (H2 a Ha) as [-> ->].
    unfold s, nh_setup. cbn [nS]. by rewrite Hv.
Qed.

(** C90: momentum.  In an MdSystem without external field the total momentum keeps its direction: it is multiplied by a positive
    number; so momentum zero stays zero. *)
Theorem nose_hoover_momentum :
  forall y cap A Pc skin cut n tau T pos vel F p m N s',
  md_ok y cap skin cut n -> groups_ok y -> yExt y = None -> (forall a, a ∈ yAtoms y -> yMass y (yTy y a) <> 0) ->
  pl_state (yM y) cap A Pc skin cut p -> nearby y pos -> md_start y pos vel F p = Ok m ->
  let s := nh_setup y (1 / tau) T m in
  nh_run y (1 / tau) T (nve_calc y) N s = Ok s' ->
  (forall k t, (k < N)%nat -> nh_run y (1 / tau) T (nve_calc y) k s = Ok t ->
     nearby y (nh_half y (exp (- (yDt y / 2 * (nXi t + yDt y / 2 * nXd t)))) (nS t))) ->
  let mass a := yMass y (yTy y a) in
  exists c, 0 < c /\ momentum mass (yAtoms y) (mVel (nS s')) = vscale c (momentum mass (yAtoms y) vel).
Proof.
  intros y cap A Pc skin cut n tau T pos vel F p m N s' Ho Hg He Hm Hst Hn Hs s Hr Hhalf mass.
  destruct (start_facts y cap A Pc skin cut n pos vel F p m Ho Hg Hst Hn Hs) as (Hb & Hv & _ & HF).
  assert (HB : forall q G, (forall a, a ∈ yAtoms y -> G a = total_force y q a) -> balanced y G).
  { intros q G E. pose proof (total_force_balanced y cap skin cut n Ho q Hg He) as H. unfold balanced in *. rewrite <- H.
    apply vget_eq. intros c. rewrite !vget_sum. apply sum_ext. intros a Ha. by rewrite E. }
  destruct (nh_run_momentum y tau T (nve_calc y) (list_built y cap A Pc skin cut) (nearby y) (mo_nodup _ _ _ _ _ Ho) (nearby_ext y) Hm) with (n := N) (s := s) (s' := s')
    as (c & Hc & E); [|done|by apply (HB (mPos m))| |done|].
  - intros q G x q' G' x' Hx Hq Hc.
    destruct (nve_calc_spec y cap A Pc skin cut n x q G q' G' x' Ho Hg Hx Hq Hc) as (H1 & _ & H2). split; [done|]. by apply (HB q').
  - intros k t Hk Ht. specialize (Hhalf k t Hk Ht). by rewrite nh_factor_eq in Hhalf.
  - exists c. split; [done|]. unfold mtm in E. fold mass in E. rewrite E. f_equal. apply vget_eq. intros i. unfold momentum. rewrite !vget_sum. apply sum_ext. intros a _.
    unfold s, nh_setup. cbn [nS]. by rewrite Hv.
Qed.

(** ** C91: dissipative particle dynamics *)

(** C91: momentum is conserved exactly, for all numbers the random number generator returns, any friction, cutoff and variant of
    the weight function. *)
Theorem dpd_momentum_conserved :
  forall y cap A Pc skin cut n kind cutoff gamma temp gauss pos vel F p f s N s',
  md_ok y cap skin cut n -> groups_ok y -> yExt y = None -> (forall a, a ∈ yAtoms y -> yMass y (yTy y a) <> 0) -> 0 <= cutoff <= cut ->
  pl_state (yM y) cap A Pc skin cut p -> nearby y pos -> dpd_setup y kind cutoff gamma temp gauss pos vel F p f = Ok s ->
  dpd_run y kind cutoff gamma temp gauss N s = Ok s' ->
  (forall k t, (k < N)%nat -> dpd_run y kind cutoff gamma temp gauss k s = Ok t -> nearby y (dpd_half y t)) ->
  let mass a := yMass y (yTy y a) in
  momentum mass (yAtoms y) (mVel (dM s')) = momentum mass (yAtoms y) vel.
Proof.
  intros y cap A Pc skin cut n kind cutoff gamma temp gauss pos vel F p f s N s' Ho Hg He Hm Hcut Hst Hn Hs Hr Hh mass.
  destruct (dpd_setup_good y cap A Pc skin cut n Ho kind cutoff gamma temp gauss Hcut pos vel F p f s Hg Hst Hn Hs) as [Hgood Hv].
  pose proof (dpd_run_momentum y cap A Pc skin cut n Ho kind cutoff gamma temp gauss Hcut N s s' _ Hg He Hm Hgood Hr Hh) as E.
  unfold mtm in E. fold mass in E. rewrite E. apply vget_eq. intros i. unfold momentum. rewrite !vget_sum. apply sum_ext. intros a _. by rewrite Hv.
Qed.

(** C91: every step.  In a state reached by any number of steps, a step first moves velocities by half the conservative,
    friction and random forces, positions by a full step; the new forces hold the conservative forces at the new positions,
    friction of the half-way velocities, and random forces with a new number for each pair of atoms within the cutoff, which
    no earlier step has used; friction is then computed again for the new velocities.  Only pairs of the pair list are
    visited, but the sums are over all atoms. *)
Theorem dpd_step_correct :
  forall y cap A Pc skin cut n kind cutoff gamma temp gauss pos vel F p f s N t t',
  md_ok y cap skin cut n -> groups_ok y -> 0 <= cutoff <= cut ->
  pl_state (yM y) cap A Pc skin cut p -> nearby y pos -> dpd_setup y kind cutoff gamma temp gauss pos vel F p f = Ok s ->
  dpd_run y kind cutoff gamma temp gauss N s = Ok t -> dpd_step y kind cutoff gamma temp gauss t = Ok t' ->
  (forall k t, (k <= N)%nat -> dpd_run y kind cutoff gamma temp gauss k s = Ok t -> nearby y (dpd_half y t)) ->
  let w := weight kind cutoff in let sigma := sqrt (2 * gamma * temp / yDt y) in
  (dK f <= dK (dF t) <= dK (dF t'))%nat /\
  same_images (bBrav (yB y)) (yAtoms y) (dpd_half y t) (mPos (dM t')) /\
  exists G v1, one_for_each y cutoff (mPos (dM t')) (dK (dF t)) (dK (dF t')) G /\ forall a, a ∈ yAtoms y ->
    let acc g := vscale (yDt y / (2 * yMass y (yTy y a))) g in
    mFrc (dM t') a = total_force y (mPos (dM t')) a /\
    dFR (dF t') a = random_force y cutoff w sigma (fun i j => gauss (G i j)) (mPos (dM t')) a /\
    dFD (dF t') a = friction y cutoff w gamma (mPos (dM t')) (mVel (dM t')) a /\
    v1 a = vadd (mVel (dM t) a) (acc (vadd (vadd (mFrc (dM t) a) (dFD (dF t) a)) (dFR (dF t) a))) /\
    mVel (dM t') a = vadd (v1 a) (acc (vadd (vadd (mFrc (dM t') a) (friction y cutoff w gamma (mPos (dM t')) v1 a)) (dFR (dF t') a))).
Proof.
  intros y cap A Pc skin cut n kind cutoff gamma temp gauss pos vel F p f s N t t' Ho Hg Hcut Hst Hn Hs Hr Ht Hh w sigma.
  destruct (dpd_setup_good y cap A Pc skin cut n Ho kind cutoff gamma temp gauss Hcut pos vel F p f s Hg Hst Hn Hs) as [Hgood Hv].
  destruct (dpd_run_good y cap A Pc skin cut n Ho kind cutoff gamma temp gauss Hcut N s t _ Hg Hgood Hr) as (k1 & Hk & Hgt).
  { intros k u Hk. apply Hh. lia. }
  pose proof (Hh N t ltac:(lia) Hr) as Hnt.
  destruct (dpd_step_spec y cap A Pc skin cut n Ho kind cutoff gamma temp gauss Hcut t t' k1 Hg Hgt Hnt Ht)
    as ((B1 & B2 & B3 & B4 & (G & G1 & G2 & G3 & G4)) & Sm & fd & v1 & K1 & K2 & E).
  destruct Hgt as (_ & _ & _ & Hkt & _). split; [lia|]. split; [done|]. exists G, v1. split; [done|]. cbv zeta. intros a Ha. destruct (E a Ha) as (E1 & E2 & E3).
  assert (Hp : yDt y / (2 * yMass y (yTy y a)) = prefactor y a) by (unfold prefactor, Rdiv; rewrite Rinv_mult; lra). rewrite Hp.
  split; [by apply B2|]. split; [by apply G4|]. split; [by apply B3|]. split; [done|]. rewrite E3. unfold dpd_total. by rewrite E2, K2.
Qed.

(** C91: friction takes energy out of the relative motion and does not depend on a common velocity; the strengths obey
    sigma^2 dt = 2 gamma T. *)
Theorem dpd_friction_dissipates :
  forall y cap skin cut n kind cutoff gamma temp pos vel u,
  md_ok y cap skin cut n -> 0 <= cutoff <= cut -> 0 <= gamma ->
  let w := weight kind cutoff in
  sum_over (yAtoms y) (fun a => vdot (friction y cutoff w gamma pos vel a) (vel a)) <= 0 /\
  (forall a, friction y cutoff w gamma pos (fun b => vadd (vel b) u) a = friction y cutoff w gamma pos vel a) /\
  vsum_over (yAtoms y) (friction y cutoff w gamma pos vel) = V3 0 0 0 /\
  (0 <= temp -> 0 < yDt y -> dpd_sigma y gamma temp * dpd_sigma y gamma temp * yDt y = 2 * gamma * temp).
Proof.
  intros y cap skin cut n kind cutoff gamma temp pos vel u Ho Hcut Hg w. split; [|split; [|split]].
  - pose proof (friction_power y cap skin cut n Ho kind cutoff gamma Hcut pos vel) as H. cbv zeta in H. fold w in H.
    match type of H with _ = - gamma * ?S => assert (HS : 0 <= S) end.
    { assert (SN : forall (l : list nat) f, (forall a, 0 <= f a) -> 0 <= sum_over l f).
      { intros l g Hg'. induction l as [|a l IH]; [rewrite sum_nil; lra|]. rewrite sum_cons. specialize (Hg' a). lra. }
      apply SN. intros i. apply SN. intros j. destruct (decide _); [lra|]. destruct (yMask y i j); [lra|].
      destruct (yDr y (pos i) (pos j)) as [rsq d]. destruct (Rlt_dec _ _); [apply Rle_0_sqr|lra]. }
    nra.
  - intros a. unfold friction, central. apply vget_eq. intros k. rewrite !vget_sum. apply sum_ext. intros j _. destruct (decide _); [done|].
    destruct (yMask y a j); [done|]. destruct (yDr y (pos a) (pos j)) as [rsq d]. destruct (Rlt_dec _ _); [|done]. cbv zeta. do 3 f_equal.
    f_equal. f_equal. apply vget_eq. intros c. unfold vsub, vadd. destruct c as [|[|c]]; cbn [vget vx vy vz]; ring.
  - apply (friction_balanced y cap skin cut n Ho kind cutoff gamma Hcut pos vel). done.
  - intros HT Hdt. unfold dpd_sigma. rewrite sqrt_sqrt; [field; lra|]. apply Rmult_le_pos; [nra|]. left. by apply Rinv_0_lt_compat.
Qed.

(** ** C92: Langevin *)

(** C92: atoms without forces.  With numbers that are independent and uniform in [0,1], after n+1 steps of any length the mean
    velocity of every atom has decayed by (1+q)/2 q^n with q = exp(-gamma dt), and the mean kinetic temperature is T up to a
    term that decays like q^(2n): the discretization does not bias the temperature. *)
Theorem langevin_mean :
  forall (X : Type) (y : mdsys) gamma temp
         (calc : (nat -> vec3 R) -> (nat -> vec3 R) -> X -> outcome ((nat -> vec3 R) * (nat -> vec3 R) * X)) n s fin,
  NoDup (yAtoms y) -> yAtoms y <> [] -> 0 < yDt y -> 0 <= gamma -> 0 <= temp -> (forall a, a ∈ yAtoms y -> 0 < yMass y (yTy y a)) ->
  (forall pos F x r, calc pos F x = Ok r -> forall a, a ∈ yAtoms y -> r.1.2 a = V3 0 0 0) ->
  (forall a, a ∈ yAtoms y -> mFrc s a = V3 0 0 0) -> runs y gamma temp calc (S n) s fin ->
  let draws := (3 * length (yAtoms y) * S n)%nat in
  let q := exp (- (gamma * yDt y)) in
  mean draws (fun l => kinetic_temperature y (mVel (fin l))) =
    temp + ((1 + q) / 2)² * (q * q) ^ n * (kinetic_temperature y (mVel s) - 2 * temp / (1 + q)) /\
  forall a c, a ∈ yAtoms y -> (c < 3)%nat ->
    mean draws (fun l => vget (mVel (fin l) a) c) = (1 + q) / 2 * q ^ n * vget (mVel s a) c /\
    mean draws (fun l => (vget (mVel (fin l) a) c)²) =
      temp / yMass y (yTy y a) + ((1 + q) / 2)² * (q * q) ^ n * ((vget (mVel s a) c)² - 2 * temp / (yMass y (yTy y a) * (1 + q))).
Proof.
  intros X y gamma temp calc n s fin Hnd Hne Hdt Hgam Htemp Hmass Hfree HF Hr draws q.
  pose proof (fun Q C => run_mean_vel y gamma temp calc Hnd Hdt Hgam Htemp Hmass Hfree n s fin Q C 0 Hr) as M. fold q in M. fold draws in M.
  assert (Hv : forall a c, a ∈ yAtoms y -> vget (vmid y s a) c = vget (mVel s a) c).
  { intros a c Ha. unfold vmid. rewrite (HF a Ha), vget_add, vget_scale, vget_zero. ring. }
  assert (HN : 0 < INR (length (yAtoms y))) by (apply lt_0_INR; destruct (yAtoms y); [done|cbn; lia]).
  assert (Hq : 0 < q) by apply exp_pos.
  split.
  - set (N := INR (length (yAtoms y))) in *.
    set (Q := fun (a c : nat) => yMass y (yTy y a) / (3 * N)).
    rewrite (mean_ext _ _ (fun l => quad y Q (fun _ _ => 0) (mVel (fin l)) + 0)).
    + rewrite M, Rplus_0_r. unfold quad_sum.
      rewrite (sum_ext _ (fun a => temp / N + ((1 + q) / 2)² * (q * q) ^ n * (yMass y (yTy y a) * normSq (mVel s a) / 2 * (2 / (3 * N)) - 2 * temp / (1 + q) * (1 / N)))).
      * rewrite EnergyProofs.sum_plus, sum_const_mult. unfold kinetic_temperature, kinetic_energy. fold N.
        replace (sum_over (yAtoms y) (fun a => yMass y (yTy y a) * normSq (mVel s a) / 2 * (2 / (3 * N)) - 2 * temp / (1 + q) * (1 / N)))
          with (2 / (3 * N) * sum_over (yAtoms y) (fun a => yMass y (yTy y a) * normSq (mVel s a) / 2) + sum_over (yAtoms y) (fun _ => - (2 * temp / (1 + q) * (1 / N)))).
        2: { rewrite <- sum_const_mult, <- EnergyProofs.sum_plus. apply sum_ext. intros a _. ring. }
        assert (SC : forall z, sum_over (yAtoms y) (fun _ => z) = N * z).
        { intros z. unfold N. generalize (yAtoms y). intros l. induction l as [|a l IH]; [rewrite sum_nil; cbn; ring|].
          rewrite sum_cons, IH. cbn [length]. rewrite S_INR. ring. }
        rewrite !SC. generalize (((1 + q) / 2)² * (q * q) ^ n). intros z. generalize (sum_over (yAtoms y) (fun a => yMass y (yTy y a) * normSq (mVel s a) / 2)). intros w. field. lra.
      * intros a Ha. rewrite !Hv by done. pose proof (Hmass a Ha) as Hm. unfold Q, normSq, vdot, Rsqr. cbn [vget].
        generalize ((q * q) ^ n). intros z. field. lra.
    + intros l _. rewrite Rplus_0_r. unfold kinetic_temperature, kinetic_energy, quad. fold N. rewrite (Rmult_comm 2). unfold Rdiv at 1.
      rewrite Rmult_assoc, (Rmult_comm (sum_over _ _)), <- sum_const_mult. apply sum_ext. intros a Ha. unfold Q, normSq, vdot. cbn [vget]. field. lra.
  - intros a c Ha Hc.
    assert (SEL : forall f : nat -> nat -> R, quad_sum y (fun a' c' => (if decide (a' = a /\ c' = c) then 1 else 0) * f a' c') = f a c).
    { intros f. unfold quad_sum. rewrite (sum_ext _ (fun a' => if decide (a' = a) then f a c else 0)).
      - revert Ha. clear - Hnd. induction Hnd as [|x l Hx Hl IH]; intros Ha; [by apply elem_of_nil in Ha|]. rewrite sum_cons.
        apply elem_of_cons in Ha as [<-|Ha].
        + rewrite decide_True by done. rewrite (sum_ext _ (fun _ => 0)); [|intros b Hb; destruct (decide _) as [->|]; done].
          assert (sum_over l (fun _ => 0) = 0) as ->; [|ring]. clear. induction l; [apply sum_nil|]. rewrite sum_cons, IHl. ring.
        + rewrite decide_False by (intros ->; done). rewrite IH by done. ring.
      - intros b _. destruct (decide (b = a)) as [->|Hb].
        + destruct c as [|[|[|]]]; try lia.
          * rewrite decide_True by done. rewrite !decide_False by lia. ring.
          * rewrite (decide_False (P := a = a /\ 0%nat = 1%nat)) by lia. rewrite decide_True by done. rewrite decide_False by lia. ring.
          * rewrite (decide_False (P := a = a /\ 0%nat = 2%nat)) by lia. rewrite (decide_False (P := a = a /\ 1%nat = 2%nat)) by lia. rewrite decide_True by done. ring.
        + rewrite !decide_False by (by intros [? _]). ring. }
    set (sel := fun a' c' : nat => if decide (a' = a /\ c' = c) then 1 else 0).
    split.
    + rewrite (mean_ext _ _ (fun l => quad y (fun _ _ => 0) sel (mVel (fin l)) + 0)).
      * rewrite M, Rplus_0_r. rewrite (quad_sum_ext y _ (fun a' c' => sel a' c' * ((1 + q) / 2 * q ^ n * vget (vmid y s a') c'))) by (intros; ring).
        unfold sel. rewrite SEL. by rewrite Hv.
      * intros l _. rewrite quad_split, Rplus_0_r. rewrite (quad_sum_ext y _ (fun a' c' => sel a' c' * vget (mVel (fin l) a') c')) by (intros; ring). unfold sel. by rewrite SEL.
    + rewrite (mean_ext _ _ (fun l => quad y sel (fun _ _ => 0) (mVel (fin l)) + 0)).
      * rewrite M, Rplus_0_r.
        rewrite (quad_sum_ext y _ (fun a' c' => sel a' c' * (temp / yMass y (yTy y a') + ((1 + q) / 2)² * (q * q) ^ n *
          ((vget (vmid y s a') c')² - 2 * temp / (yMass y (yTy y a') * (1 + q)))))) by (intros; unfold Rsqr; ring).
        unfold sel. rewrite SEL. by rewrite Hv.
      * intros l _. rewrite quad_split, Rplus_0_r. rewrite (quad_sum_ext y _ (fun a' c' => sel a' c' * (vget (mVel (fin l) a') c')²)) by (intros; unfold Rsqr; ring). unfold sel. by rewrite SEL.
Qed.

(** C92: with any friction the mean temperature tends to the one asked for, whatever the length of the time step. *)
Theorem langevin_temperature_limit :
  forall (X : Type) (y : mdsys) gamma temp
         (calc : (nat -> vec3 R) -> (nat -> vec3 R) -> X -> outcome ((nat -> vec3 R) * (nat -> vec3 R) * X)) s fin,
  NoDup (yAtoms y) -> yAtoms y <> [] -> 0 < yDt y -> 0 < gamma -> 0 <= temp -> (forall a, a ∈ yAtoms y -> 0 < yMass y (yTy y a)) ->
  (forall pos F x r, calc pos F x = Ok r -> forall a, a ∈ yAtoms y -> r.1.2 a = V3 0 0 0) ->
  (forall a, a ∈ yAtoms y -> mFrc s a = V3 0 0 0) -> (forall n, runs y gamma temp calc n s (fin n)) ->
  is_lim_seq (fun n => mean (3 * length (yAtoms y) * n) (fun l => kinetic_temperature y (mVel (fin n l)))) temp.
Proof.
  intros X y gamma temp calc s fin Hnd Hne Hdt Hgam Htemp Hmass Hfree HF Hr. apply is_lim_seq_incr_1.
  set (q := exp (- (gamma * yDt y))). assert (Hq0 : 0 < q) by apply exp_pos.
  assert (Hq1 : q < 1).
  { unfold q. apply Rlt_le_trans with (exp 0); [|rewrite exp_0; lra]. apply exp_increasing. assert (0 < gamma * yDt y) by (by apply Rmult_lt_0_compat). lra. }
  set (K := ((1 + q) / 2)² * (kinetic_temperature y (mVel s) - 2 * temp / (1 + q))).
  apply (is_lim_seq_ext (fun n => temp + K * (q * q) ^ n)).
  - intros n. destruct (langevin_mean X y gamma temp calc n s (fin (S n)) Hnd Hne Hdt ltac:(lra) Htemp Hmass Hfree HF (Hr (S n))) as [E _]. cbv zeta in E. fold q in E.
    rewrite E. unfold K. ring.
  - replace (Finite temp) with (Finite (temp + K * 0)) by (f_equal; ring).
    apply is_lim_seq_plus'; [apply is_lim_seq_const|]. apply (is_lim_seq_scal_l _ K (Finite 0)). apply is_lim_seq_geom. rewrite Rabs_pos_eq by nra. nra.
Qed.

(** ** C93: archives *)

(** C93: what save() writes, loadParameters() reads back, for every integrator except the two for Langevin dynamics. *)
Theorem integrators_restart :
  (forall types x rest, (0 < types)%Z -> length (vePre x) = Z.to_nat types -> nve_load types (nve_save x ++ rest) = Ok (x, rest)) /\
  (forall x rest, nh_load (nh_save x ++ rest) = Ok (x, rest)) /\
  (forall maxcut x rest, pCut x <= maxcut -> dpd_load maxcut (dpd_save x ++ rest) = Ok (x, rest)) /\
  (forall x rest, nph_load (nph_save x ++ rest) = Ok (x, rest)) /\
  forall bi name,
  (forall x rest, loadable bi x.2 name -> dd_nve_load bi name (dd_nve_save x ++ rest) = Ok (x.1, x.2, rest)) /\
  (forall x rest, loadable bi (vtB x) name -> dd_nvt_load bi name (dd_nvt_save x ++ rest) = Ok (x, rest)) /\
  (forall x rest, loadable bi (dhB x) name -> dd_nph_load bi name (dd_nph_save x ++ rest) = Ok (x, rest)) /\
  (forall x rest, loadable bi (ptB x) name -> dd_npt_load bi name (dd_npt_save x ++ rest) = Ok (x, rest)).
Proof.
  split; [intros; by apply nve_trip|]. split; [apply nh_trip|]. split; [intros; by apply dpd_trip|]. split; [apply nph_trip|].
  intros bi name. split; [intros; by apply dd_nve_trip|]. split; [intros; by apply dd_nvt_trip|]. split; [intros; by apply dd_nph_trip|].
  intros; by apply dd_npt_trip.
Qed.

(** C93 is false of the Langevin integrators of both programs: save() writes gamma, loadParameters() does not read it, so
    it takes the bytes of gamma for the next thing in the archive, for every state, every archive and every loading object. *)
Theorem langevin_restart_refuted :
  (forall types g x rest, lang_load types g (lang_save x ++ rest) <> Ok (x, rest)) /\
  (forall bi name g x rest, dd_lang_load bi name g (dd_lang_save x ++ rest) <> Ok (x, rest)).
Proof. split; [apply lang_trip_fails|apply dd_lang_trip_fails]. Qed.
