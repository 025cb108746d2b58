(** Constant pressure and enthalpy, hybrid moves: C94 to C97. *)
From Coq Require Import Reals Lra.
From Coquelicot Require Import Coquelicot.
From stdpp Require Import gmap.
From Verif Require Import Base Vec3 BoxSpec OrthoModel OrthoSpec OrthoProofs OrthoProps MonoModel MonoSpec MonoProofs MonoProps.
From Verif Require Import McCellModel DomainModel DomainProofs SpeciesModel SpeciesProofs.
From Verif Require Import CellListModel CellListSpec CellListProofs CellListProps PairListModel PairListSpec PairListProofs PairListProps.
From Verif Require Import EnergyModel EnergySpec EnergyProofs MoveModel MoveSpec MoveProofs EnergyProps MoveProps MdModel MdSpec MdProofs MdForces MdProps.
From Verif Require Import ThermoModel ThermoSpec ThermoProofs NphModel NphSpec NphProofs BalanceSpec BalanceProps.
From Coq Require Import Reals Lra.
Local Open Scope R_scope.
Local Open Scope R_scope.

(** ** C94: the NphIntegrator *)

(** Any system whose forces and virial depend only on the box and on the positions up to lattice translations, in any of the
    three lattice systems, and any step that leaves the box with positive lengths: eta advances by half a step with the old
    pressure and box, the box by a whole step with that eta, positions and velocities follow the box while the atoms move with
    the half-step velocities scaled by the box at half a step, and eta advances by the other half step with the new pressure
    and box. *)
Theorem nph_step_equations :
  forall X y mode W extP Force Vir Inv good relist calc virial (s s' : nphs X),
  lawful y Force Vir Inv good relist calc virial -> W <> 0 -> nph_ready y Force Inv good mode s -> nph_within good s' ->
  nph_step y mode W extP relist calc virial s = Ok s' ->
  let l := oLen (hB s) in let f := oLen (hB s') in let dt := yDt y in
  nph_ready y Force Inv good mode s' /\
  exists eta h,
    (forall i, (i < 3)%nat -> vget eta i = vget (hEta s) i + dt / 2 * eta_rate mode extP l (pressure y (Vir l (mPos (hS s))) l (mVel (hS s))) i) /\
    box_after mode W (dt / 2) l eta h /\ box_after mode W dt l eta f /\
    (forall i, (i < 3)%nat -> vget (hEta s') i = vget eta i + dt / 2 * eta_rate mode extP f (pressure y (Vir f (mPos (hS s'))) f (mVel (hS s'))) i) /\
    forall a, a ∈ yAtoms y -> exists m : vec3 Z, forall i, (i < 3)%nat ->
      let v := vget (mVel (hS s) a) i + dt / (2 * yMass y (yTy y a)) * vget (Force l (mPos (hS s)) a) i in
      vget (mPos (hS s') a) i = (vget (mPos (hS s) a) i + dt * v * ((vget l i / vget h i) * (vget l i / vget h i))) * (vget f i / vget l i) + IZR (vget m i) * vget f i /\
      vget (mVel (hS s') a) i = v * (vget l i / vget f i) + dt / (2 * yMass y (yTy y a)) * vget (Force f (mPos (hS s')) a) i.
Proof.
  intros X y mode W extP Force Vir Inv good relist calc virial s s' L HW Hs Hw H l f dt.
  destruct (nph_step_spec y mode W extP Force Vir Inv good relist calc virial L s s' Hs Hw H) as (Hs' & eta & h & Ee & El & Ee' & E).
  fold l f in Ee, El, Ee', E. split; [done|]. exists eta, h.
  destruct (nph_lengths_after y mode W l eta h f HW El) as [A1 A2].
  assert (HE : forall V l' e P i, V = box_volume l' -> (i < 3)%nat -> vget (nph_eta y mode extP V l' e (V3 (P 0%nat) (P 1%nat) (P 2%nat))) i =
    vget e i + dt / 2 * eta_rate mode extP l' P i).
  { intros V l' e P i -> Hi. unfold nph_eta, eta_rate, dt. destruct mode; destruct i as [|[|[|i]]]; try lia; cbn [vget vx vy vz]; unfold Rdiv; try ring. }
  split; [intros i Hi; rewrite Ee; by apply HE|]. split; [done|]. split; [done|]. split; [intros i Hi; rewrite Ee'; by apply HE|].
  assert (Hpl : forall i, (i < 3)%nat -> vget l i <> 0).
  { intros i Hi. pose proof (pos3_get l i (proj1 (box_of_facts _ _ (nr_box _ _ _ _ _ _ Hs)))). lra. }
  assert (Hpf : forall i, (i < 3)%nat -> vget f i <> 0).
  { intros i Hi. pose proof (pos3_get f i (proj1 (box_of_facts _ _ (nr_box _ _ _ _ _ _ Hs')))). lra. }
  intros a Ha. destruct (E a Ha) as (k & m & E1 & E2). exists (V3 (vx k + vx m) (vy k + vy m) (vz k + vz m))%Z. intros i Hi.
  specialize (Hpl i Hi). specialize (Hpf i Hi).
  assert (Ep : prefactor y a = dt / (2 * yMass y (yTy y a))) by (unfold prefactor, dt, Rdiv; rewrite Rinv_mult; lra).
  rewrite (nr_force _ _ _ _ _ _ Hs a Ha) in E1, E2. rewrite (nr_force _ _ _ _ _ _ Hs' a Ha) in E2. rewrite Ep in E1, E2. fold l in E1, E2. fold f in E2.
  split.
  - rewrite E1. unfold nph_fac2, nph_fac. cbv zeta. fold dt.
    repeat (rewrite vget_add || rewrite vget_scale || (rewrite vget_mul by done) || (rewrite vget_div by done) || (rewrite edge_lattice by done)).
    generalize (dt / (2 * yMass y (yTy y a))). intros c.
    destruct i as [|[|[|i]]]; [..|lia]; cbn [vget vx vy vz] in *; rewrite !plus_IZR; unfold Rdiv; generalize (/ vx h) (/ vy h) (/ vz h); intros; field; done.
  - rewrite E2. unfold nph_fac.
    repeat (rewrite vget_add || rewrite vget_scale || (rewrite vget_mul by done) || (rewrite vget_div by done)).
    generalize (dt / (2 * yMass y (yTy y a))). intros c. field. done.
Qed.

(** N steps, then all velocities and barostat momenta reversed, then N steps: the box, the positions up to lattice translations,
    the reversed velocities and the reversed barostat momenta are as at the beginning. *)
Theorem nph_reversible :
  forall X y mode W extP Force Vir Inv good relist calc virial N (s s' t : nphs X),
  lawful y Force Vir Inv good relist calc virial -> nph_ready y Force Inv good mode s ->
  nph_run y mode W extP relist calc virial N s = Ok s' ->
  (forall k u, (k <= N)%nat -> nph_run y mode W extP relist calc virial k s = Ok u -> nph_within good u) ->
  nph_run y mode W extP relist calc virial N (nph_reversed s') = Ok t ->
  (forall k u, (k <= N)%nat -> nph_run y mode W extP relist calc virial k (nph_reversed s') = Ok u -> nph_within good u) ->
  nph_opposite y s t.
Proof.
  intros X y mode W extP Force Vir Inv good relist calc virial N s s' t L Hs Hr Ht Hb Htb.
  by apply (nph_run_back y mode W extP Force Vir Inv good relist calc virial L N s s' t).
Qed.

(** ** C95: momenta drawn at random *)

Lemma velocities_spec y temp g vel : NoDup (yAtoms y) ->
  (forall i a, yAtoms y !! i = Some a -> (boltzmann_velocities y temp g vel).1 a =
     vscale (sqrt (temp / yMass y (yTy y a))) (V3 (g (3 * i)%nat) (g (3 * i + 1)%nat) (g (3 * i + 2)%nat))) /\
  (forall a, a ∉ yAtoms y -> (boltzmann_velocities y temp g vel).1 a = vel a).
Proof.
  intros Hnd. unfold boltzmann_velocities.
  assert (H : forall l vel k, NoDup l -> 
    let r := fold_left (fun (s : (nat -> vec3 R) * nat) a => let (vel, k) := s in
      let scale := sqrt (temp / yMass y (yTy y a)) in
      (move vel a (V3 (scale * g k) (scale * g (k + 1)%nat) (scale * g (k + 2)%nat)), (k + 3)%nat)) l (vel, k) in
    (forall i a, l !! i = Some a -> r.1 a = vscale (sqrt (temp / yMass y (yTy y a))) (V3 (g (k + 3 * i)%nat) (g (k + 3 * i + 1)%nat) (g (k + 3 * i + 2)%nat))) /\
    (forall a, a ∉ l -> r.1 a = vel a)).
  { clear Hnd vel. intros l. induction l as [|b l IH]; intros vel k Hnd; [split; [done|done]|]. apply NoDup_cons in Hnd as [Hb Hl]. cbn [fold_left]. cbv zeta in *.
    destruct (IH (move vel b (V3 (sqrt (temp / yMass y (yTy y b)) * g k) (sqrt (temp / yMass y (yTy y b)) * g (k + 1)%nat) (sqrt (temp / yMass y (yTy y b)) * g (k + 2)%nat))) (k + 3)%nat Hl) as [I1 I2].
    split.
    - intros [|i] a Hi.
      + injection Hi as ->. rewrite (I2 a Hb), move_same. rewrite Nat.mul_0_r, Nat.add_0_r. done.
      + rewrite (I1 i a Hi). replace (k + 3 + 3 * i)%nat with (k + 3 * S i)%nat by lia. done.
    - intros a Ha. rewrite not_elem_of_cons in Ha. rewrite (I2 a) by tauto. by rewrite move_other by tauto. }
  destruct (H (yAtoms y) vel 0%nat Hnd) as [H1 H2]. split; [|exact H2]. intros i a Hi. exact (H1 i a Hi).
Qed.
Lemma sum_triples (f : nat -> R) n k : sum_over (seq k (3 * n)) f = sum_over (seq 0 n) (fun i => f (k + 3 * i)%nat + f (k + 3 * i + 1)%nat + f (k + 3 * i + 2)%nat).
Proof.
  revert k. induction n as [|n IH]; intros k; [done|]. replace (3 * S n)%nat with (S (S (S (3 * n)))) by lia. cbn [seq]. rewrite !sum_cons, IH, <- fmap_S_seq.
  assert (E : forall h : nat -> R, sum_over (S <$> seq 0 n) h = sum_over (seq 0 n) (fun i => h (S i))).
  { intros h. unfold sum_over. change (S <$> seq 0 n) with (map S (seq 0 n)). by rewrite map_map. }
  rewrite E. rewrite Nat.mul_0_r, Nat.add_0_r. replace (k + 1)%nat with (S k) by lia. replace (k + 2)%nat with (S (S k)) by lia.
  rewrite (sum_ext (fun i => f (S (S (S k)) + 3 * i)%nat + f (S (S (S k)) + 3 * i + 1)%nat + f (S (S (S k)) + 3 * i + 2)%nat)
    (fun i => f (k + 3 * S i)%nat + f (k + 3 * S i + 1)%nat + f (k + 3 * S i + 2)%nat) (seq 0 n)); [ring|].
  intros i _. by replace (S (S (S k)) + 3 * i)%nat with (k + 3 * S i)%nat by lia.
Qed.
Lemma sum_index {A} (l : list A) (f : A -> R) (h : nat -> R) : (forall i a, l !! i = Some a -> f a = h i) -> sum_over l f = sum_over (seq 0 (length l)) h.
Proof.
  revert h. induction l as [|a l IH]; intros h H; [done|]. cbn [length seq]. rewrite !sum_cons, (H 0%nat a eq_refl). f_equal.
  rewrite (IH (fun i => h (S i))); [|intros i b Hb; by apply (H (S i))]. rewrite <- fmap_S_seq. unfold sum_over. change (S <$> seq 0 (length l)) with (map S (seq 0 (length l))). by rewrite map_map.
Qed.

(** The kinetic energy of velocities from setBoltzmannVelocities. *)
Lemma drawn_kinetic y temp g vel : NoDup (yAtoms y) -> 0 < temp -> (forall a, a ∈ yAtoms y -> 0 < yMass y (yTy y a)) ->
  kinetic_energy y (boltzmann_velocities y temp g vel).1 = temp * (sum_over (seq 0 (3 * length (yAtoms y))) (fun k => g k * g k) / 2).
Proof.
  intros Hnd HT Hm. unfold kinetic_energy.
  rewrite (sum_index (yAtoms y) _ (fun i => temp / 2 * (g (3 * i)%nat * g (3 * i)%nat + g (3 * i + 1)%nat * g (3 * i + 1)%nat + g (3 * i + 2)%nat * g (3 * i + 2)%nat))).
  - rewrite sum_const_mult, (sum_triples (fun k => g k * g k) (length (yAtoms y)) 0). cbn [Nat.add]. field.
  - intros i a Hi. rewrite (proj1 (velocities_spec y temp g vel Hnd) i a Hi), normSq_scale.
    assert (Ha : a ∈ yAtoms y) by (by eapply elem_of_list_lookup_2). specialize (Hm a Ha).
    rewrite sqrt_sqrt by (apply Rlt_le; apply Rdiv_lt_0_compat; done). unfold normSq, vdot. cbn [vx vy vz]. field. lra.
Qed.

(** MdSystem::setBoltzmannVelocities, given independent normal deviates, draws velocities from the Boltzmann distribution. *)
Theorem velocities_boltzmann :
  forall y temp vel, NoDup (yAtoms y) -> 0 < temp -> (forall a, a ∈ yAtoms y -> 0 < yMass y (yTy y a)) ->
  boltzmann_distributed (3 * length (yAtoms y)) temp (fun g => kinetic y (boltzmann_velocities y temp g vel).1).
Proof.
  intros y temp vel Hnd HT Hm. exists 1. split; [lra|]. intros g. rewrite Rmult_1_l. f_equal. rewrite kinetic_spec, drawn_kinetic by done.
  field. lra.
Qed.

(** HybridNphMdMove draws barostat momenta from the Boltzmann distribution of barostatEnergy only if the mass W is 1 and the
    box is cubic or orthorhombic: the standard deviation sqrt(T/W) is that of a velocity, and eta is a momentum. *)
Theorem barostat_boltzmann_refuted :
  forall mode W temp eta, 0 < W -> 0 < temp -> (mode = Cubic \/ mode = Tetragonal \/ mode = Orthorhombic) ->
  boltzmann_distributed (barostat_freedom mode) temp (fun g => barostat_energy mode W (draw_eta mode W temp g eta)) <-> (W = 1 /\ mode <> Tetragonal).
Proof.
  intros mode W temp eta HW HT Hmode.
  assert (S1 : sqrt (temp / W) * sqrt (temp / W) = temp / W) by (apply sqrt_sqrt; apply Rlt_le, Rdiv_lt_0_compat; done).
  assert (S2 : sqrt (temp / W / 2) * sqrt (temp / W / 2) = temp / W / 2) by (apply sqrt_sqrt; apply Rlt_le; repeat apply Rdiv_lt_0_compat; lra).
  assert (EV : forall g, barostat_energy mode W (draw_eta mode W temp g eta) / temp =
    match mode with
    | Cubic => g 0%nat * g 0%nat / (2 * W * W)
    | Tetragonal => g 0%nat * g 0%nat / (2 * W * W) + g 1%nat * g 1%nat / (8 * W * W)
    | Orthorhombic => (g 0%nat * g 0%nat + g 1%nat * g 1%nat + g 2%nat * g 2%nat) / (2 * W * W)
    | _ => 0
    end).
  { assert (Q : forall c x, c * x * (c * x) = c * c * (x * x)) by (intros; ring).
    intros g. destruct Hmode as [->|[->| ->]]; cbn [barostat_energy draw_eta vx vy vz]; rewrite !Q, ?S1, ?S2; field; lra. }
  split.
  - intros (c & Hc & H). 
    assert (H' : forall g, barostat_energy mode W (draw_eta mode W temp g eta) / temp = sum_over (seq 0 (barostat_freedom mode)) (fun k => g k * g k) / 2).
    { pose proof (H (fun _ => 0)) as H0. rewrite EV in H0.
      assert (c = 1) as ->.
      { destruct Hmode as [->|[->| ->]]; cbn [barostat_freedom seq] in H0; unfold sum_over in H0; cbn [map Rsum] in H0;
          (match type of H0 with exp ?a = c * exp ?b => replace a with 0 in H0 by (field; lra); replace b with 0 in H0 by field end; rewrite exp_0 in H0; lra). }
      intros g. pose proof (H g) as Hg. rewrite Rmult_1_l in Hg. apply exp_inv in Hg. unfold Rdiv in *. lra. }
    assert (K : forall x, 0 < x -> 1 / (2 * x * x) = 1 / 2 -> x = 1).
    { intros x Hx E. assert (x * x = 1) by (apply (f_equal (fun z => z * (2 * x * x))) in E; field_simplify in E; [nra|lra]). nra. }
    destruct Hmode as [->|[->| ->]].
    + split; [|done]. apply (K W HW). pose proof (H' (fun k => if decide (k = 0)%nat then 1 else 0)) as E. rewrite EV in E.
      cbn [barostat_freedom seq] in E. unfold sum_over in E. cbn [map Rsum] in E. rewrite decide_True in E by done. rewrite <- (Rmult_1_l 1) at 1. rewrite E. field.
    + exfalso. assert (W = 1) as ->.
      { apply (K W HW). pose proof (H' (fun k => if decide (k = 0)%nat then 1 else 0)) as E. rewrite EV in E.
        cbn [barostat_freedom seq] in E. unfold sum_over in E. cbn [map Rsum] in E. rewrite decide_True, decide_False in E by done. lra. }
      pose proof (H' (fun k => if decide (k = 0)%nat then 0 else 1)) as E. rewrite EV in E.
      cbn [barostat_freedom seq] in E. unfold sum_over in E. cbn [map Rsum] in E. rewrite decide_True, decide_False in E by done. lra.
    + split; [|done]. apply (K W HW). pose proof (H' (fun k => if decide (k = 0)%nat then 1 else 0)) as E. rewrite EV in E.
      cbn [barostat_freedom seq] in E. unfold sum_over in E. cbn [map Rsum] in E. rewrite decide_True, !decide_False in E by done. 
      replace (1 / (2 * W * W)) with ((1 * 1 + 0 * 0 + 0 * 0) / (2 * W * W)) by (f_equal; ring). rewrite E. field.
  - intros [-> Ht]. exists 1. split; [lra|]. intros g. rewrite Rmult_1_l. f_equal. rewrite EV.
    destruct Hmode as [->|[->| ->]]; [|done|]; cbn [barostat_freedom seq]; unfold sum_over; cbn [map Rsum]; field.
Qed.

(** ** C96: HybridMdMove *)

Section HybridProofs.
  Context (y : mdsys) (u : R -> Z -> Z -> R) (ext : option (vec3 R -> Z -> R)) (cap A Pc : nat) (skin cut : R) (n : vec3 Z).
  Context (Ho : md_ok y cap skin cut n) (Hg : groups_ok y) (Hu : interaction_ok cut u).
  Let kinds := map fK (yKinds y).

  (** A state between steps: the pair list is current, the forces are those of the positions. *)
  Record at_rest (s : mds plist) : Prop := {
    ar_list : list_built y cap A Pc skin cut (mX s);
    ar_near : nearby y (mPos s);
    ar_current : pl_isCurrent (bDist (yB y)) (mPos s) (mX s) = Ok true;
    ar_force : forall a, a ∈ yAtoms y -> mFrc s a = total_force y (mPos s) a
  }.

  Lemma start_rest pos vel F p s : pl_state (yM y) cap A Pc skin cut p -> nearby y pos -> md_start y pos vel F p = Ok s ->
    at_rest s /\ same_images (bBrav (yB y)) (yAtoms y) pos (mPos s) /\ forall a, mVel s a = vel a.
  Proof using Ho Hg.
    intros Hst Hn. unfold md_start. intros ([pos1 p1] & Href & H)%obind_Ok. apply obind_Ok in H as ([[pos2 F2] p2] & Hc & [= <-]).
    cbn [mX mVel mPos mFrc].
    assert (Hb1 : list_built y cap A Pc skin cut p1) by (exists p, pos, pos1; done).
    assert (nearby y pos1 /\ same_images (bBrav (yB y)) (yAtoms y) pos pos1) as [Hn1 Hs1].
    { destruct (boundary_facts _ (y_boundary y cap skin cut n Ho)) as [F1 F2' F3 F4 F6 F5]. pose proof (mo_cut _ _ _ _ _ Ho) as Hc0.
      assert (Hat' : forall a, a ∈ yAtoms y -> (a < cap)%nat /\ primary (bGen (yB y) (bWrap (yB y) (pos a)))).
      { intros a Ha. split; [by apply (mo_cap _ _ _ _ _ Ho)|]. by apply F5, Hn. }
      destruct (builds_general (yM y) cap A Pc _ _ _ _ (bBrav (yB y)) (yMask y) skin cut n (yAtoms y) pos p ltac:(lra) F1 F2' F3 Hst
        (mo_grid _ _ _ _ _ Ho) (mo_nodup _ _ _ _ _ Ho) Hat') as [(pos1' & p1' & l & E & Hp & _)|[E _]].
      - rewrite Href in E. injection E as <- <-.
        split; intros a Ha; rewrite Hp, decide_True by done; by apply (y_wrap y cap skin cut n Ho), Hn.
      - by rewrite Href in E. }
    destruct (md_calc_spec y cap A Pc skin cut n Ho p1 pos1 F pos2 F2 p2 Hg Hb1 Hn1 Hc) as (H1 & H2 & H3 & H5 & H4).
    split; [done|]. split; [by eapply same_trans|done].
  Qed.
  Lemma step_rest s s' : at_rest s -> nearby y (half_step y s) -> vv_step y (nve_calc y) s = Ok s' -> at_rest s'.
  Proof using Ho Hg.
    intros [R1 R2 R3 R4] Hh. unfold vv_step.
    pose proof (integrate1_spec y (mFrc s) (mPos s) (mVel s) (mo_nodup _ _ _ _ _ Ho) _ eq_refl) as H1.
    destruct (integrate1 y (mFrc s) (mPos s, mVel s)) as [pos1 vel1]. cbn [fst snd] in H1.
    assert (E : forall a, a ∈ yAtoms y -> pos1 a = half_step y s a).
    { intros a Ha. destruct (proj1 (H1 a) Ha) as [E1 ->]. rewrite E1. unfold half_step, prefactor. f_equal. f_equal. f_equal. f_equal.
      unfold Rdiv. rewrite Rinv_mult. lra. }
    assert (Hn1 : nearby y pos1) by (intros a Ha; rewrite E by done; by apply Hh).
    unfold nve_calc. intros ([[pos2 F2] p2] & Hl & [= <-])%obind_Ok. apply obind_Ok in Hl as ([pos3 p3] & Hl & Hc).
    destruct (md_list_spec y cap A Pc skin cut n Ho _ pos1 pos3 p3 R1 Hn1 Hl) as (Hb1 & Hn3 & _ & _).
    destruct (md_calc_spec y cap A Pc skin cut n Ho p3 pos3 _ pos2 F2 p2 Hg Hb1 Hn3 Hc) as (K1 & K2 & K3 & K5 & K4). done.
  Qed.
  Lemma run_rest N : forall s s', at_rest s -> nve_run y N s = Ok s' -> (forall k t, (k < N)%nat -> nve_run y k s = Ok t -> nearby y (half_step y t)) -> at_rest s'.
  Proof using Ho Hg.
    unfold nve_run. induction N as [|N IH]; intros s s' Hs; cbn [vv_run]; [by intros [= <-]|].
    intros (s1 & H1 & H2)%obind_Ok Hk. apply (IH s1 s'); [|done|].
    - apply (step_rest s); [done| |done]. apply (Hk 0%nat); [lia|done].
    - intros k t Hlt Ht. apply (Hk (S k)); [lia|]. cbn [vv_run]. rewrite H1. done.
  Qed.

  (** MdSystem::potentialEnergy between steps: the energy of all pairs, groups and atoms, and nothing changes. *)
  Lemma potential_rest s : at_rest s ->
    md_potential y u ext s = Ok (total_energy (bDist (yB y)) (yMask y) u kinds ext (yAtoms y) (mPos s) (yTy y), s).
  Proof using Ho Hu.
    intros [R1 R2 R3 R4]. unfold md_potential.
    assert (EL : md_list y (mPos s) (mX s) = Ok (mPos s, mX s)) by (unfold md_list, md_update; rewrite R3; done).
    rewrite EL. cbn [obind]. pose proof (mo_cut _ _ _ _ _ Ho) as Hc0.
    destruct R1 as (p0 & pos0 & pos1 & Hst & Hn0 & Href).
    pose proof (refresh_state _ _ _ _ _ _ _ _ _ _ _ _ _ _ _ _ Hst Href) as Hst'.
    assert (Hs0 : 0 <= skin) by (destruct (state_stok (yM y) cap A Pc skin cut p0 ltac:(lra) Hst) as [_ _ _ _ Hs0 _]; lra).
    destruct (pair_iterator_correct _ _ _ _ _ _ _ (Rlt_le _ _ Hc0) Hst') as (HN & _).
    destruct (md_energy_boundary (yM y) cap A Pc (yB y) (yMask y) u cut skin n (yAtoms y) pos0 (yTy y) p0 pos1 (mX s)) with (new := mPos s)
      as [(q & p2 & E & _ & HE)|[E _]]; try done.
    - by apply (y_boundary y cap skin cut n Ho).
    - by apply (mo_grid _ _ _ _ _ Ho).
    - by apply (mo_nodup _ _ _ _ _ Ho).
    - intros a Ha. split; [by apply (mo_cap _ _ _ _ _ Ho)|by apply Hn0].
    - intros r q m Hr Hq Hd. by apply (y_min y cap skin cut n Ho r q m).
    - intros a Ha. split; [by apply (mo_cap _ _ _ _ _ Ho)|by apply R2].
    - change (md_list y (mPos s) (mX s) = Ok (q, p2)) in E. rewrite EL in E. injection E as <- <-.
      rewrite HE by lia. cbn [obind]. f_equal. f_equal; [|by destruct s].
      unfold total_energy, ext_total, external_energy. rewrite !EnergyProofs.fold_sum, Rplus_0_l. f_equal. f_equal.
      unfold kinds. rewrite sum_map. apply sum_ext. intros k _. unfold kind_total, bonded_energy.
      rewrite (fold_sum_ext _ (fun m => sum_over (kGrp (fK k) m) (fun g => kE (fK k) (map (mPos s) (gAt g)) (gTy g)))); [ring|].
      intros e' m _. rewrite EnergyProofs.fold_sum. done.
    - change (md_list y (mPos s) (mX s) = Throw) in E. by rewrite EL in E.
  Qed.
End HybridProofs.

(** The energy of a state, potential and kinetic. *)
Definition total_and_kinetic (y : mdsys) u ext (pos vel : nat -> vec3 R) : R :=
  total_energy (bDist (yB y)) (yMask y) u (map fK (yKinds y)) ext (yAtoms y) pos (yTy y) + kinetic_energy y vel.

Lemma mc_build_types M toGen wrap lens cut atoms s s' : mc_build M toGen wrap lens cut atoms s = Ok s' -> sTy s' = sTy s.
Proof.
  unfold mc_build. intros (c & _ & H)%obind_Ok. change (sTy s) with (sTy (MC (sPos s) (sTy s) c)). revert H. generalize (MC (sPos s) (sTy s) c). clear s.
  induction atoms as [|a l IH]; intros s; cbn [foldM]; [by intros [= <-]|]. intros (s1 & H1 & H)%obind_Ok. rewrite (IH _ H).
  unfold mc_enter in H1. apply obind_Ok in H1 as (c' & _ & [= <-]). done.
Qed.
Lemma restore_positions (old : nat -> vec3 R) l : forall pos a, a ∈ l \/ pos a = old a -> fold_left (fun p a => move p a (old a)) l pos a = old a.
Proof.
  induction l as [|b l IH]; intros pos a H; [by destruct H as [H%elem_of_nil|H]|]. cbn [fold_left]. apply IH.
  destruct (decide (a = b)) as [->|Hb]; [right; by rewrite move_same|]. destruct H as [H|H]; [apply elem_of_cons in H as [H|H]; [done|by left]|]. right. by rewrite move_other.
Qed.

(** Any system and configuration, any number of steps in which no atom moves by more than a cell, any numbers drawn: the move
    integrates the equations of motion from the present positions and velocities sqrt(T/m) times the normal deviates, accepts
    with the Metropolis rule on the change of the whole energy, and then the system has the new positions, shifted into the
    box, and its cell list holds them; otherwise every atom is where it was and the cell list is as before. *)
Theorem hybrid_move_correct :
  forall y u ext beta cap A Pc skin cut n nm N g r temp vel F s p dE s' p' acc,
  md_ok y cap skin cut n -> groups_ok y -> interaction_ok cut u -> pl_state (yM y) cap A Pc skin cut p -> nearby y (sPos s) ->
  (2 <= yM y)%nat -> grid_of (bLens (yB y)) cut nm -> synced (yM y) cap (bGen (yB y)) (bLens (yB y)) cut nm (yAtoms y) s ->
  (forall m0 k m, md_start y (sPos s) (boltzmann_velocities y temp g vel).1 F p = Ok m0 -> (k < N)%nat -> nve_run y k m0 = Ok m ->
     nearby y (half_step y m)) ->
  hybrid_move y u ext beta cut N g r temp vel F s p = Ok (dE, s', p', acc) ->
  exists m0 m1 : mds plist,
    (same_images (bBrav (yB y)) (yAtoms y) (sPos s) (mPos m0) /\
     (forall i a, yAtoms y !! i = Some a -> mVel m0 a = vscale (sqrt (temp / yMass y (yTy y a))) (V3 (g (3 * i)%nat) (g (3 * i + 1)%nat) (g (3 * i + 2)%nat))) /\
     (forall a, a ∈ yAtoms y -> mFrc m0 a = total_force y (mPos m0) a)) /\
    nve_run y N m0 = Ok m1 /\
    dE = total_and_kinetic y u ext (mPos m1) (mVel m1) - total_and_kinetic y u ext (mPos m0) (mVel m0) /\
    acc = metropolis (exp (- beta * dE)) r /\
    (forall a, sTy s' a = sTy s a) /\ list_built y cap A Pc skin cut p' /\
    if acc then
      (~ crowded (bGen (yB y)) nm (yM y - 1) (yAtoms y) (fun a => bWrap (yB y) (mPos m1 a)) ->
       synced (yM y) cap (bGen (yB y)) (bLens (yB y)) cut nm (yAtoms y) s' /\ forall a, a ∈ yAtoms y -> sPos s' a = bWrap (yB y) (mPos m1 a))
    else
      synced (yM y) cap (bGen (yB y)) (bLens (yB y)) cut nm (yAtoms y) s' /\ sCells s' = sCells s /\ forall a, a ∈ yAtoms y -> sPos s' a = sPos s a.
Proof.
  intros y u ext beta cap A Pc skin cut n nm N g r temp vel F s p dE s' p' acc Ho Hg Hu Hst Hn HM HGm Hsy Hhalf.
  unfold hybrid_move. intros (m0 & H0 & H)%obind_Ok.
  destruct (start_rest y cap A Pc skin cut n Ho Hg _ _ _ _ _ Hst Hn H0) as (R0 & I0 & V0).
  rewrite (potential_rest y u ext cap A Pc skin cut n Ho Hu m0 R0) in H. cbn [obind] in H.
  apply obind_Ok in H as (m1 & H1 & H).
  assert (R1 : at_rest y cap A Pc skin cut m1).
  { apply (run_rest y cap A Pc skin cut n Ho Hg N m0 m1 R0 H1). intros k t Hk Ht. by apply (Hhalf m0 k t). }
  rewrite (potential_rest y u ext cap A Pc skin cut n Ho Hu m1 R1) in H. cbn [obind] in H.
  rewrite !kinetic_spec in H. fold (total_and_kinetic y u ext (mPos m1) (mVel m1)) in H. fold (total_and_kinetic y u ext (mPos m0) (mVel m0)) in H.
  exists m0, m1. split.
  { split; [done|]. split; [|apply R0]. intros i a Hi. rewrite V0. by apply velocities_spec; [apply (mo_nodup _ _ _ _ _ Ho)|]. }
  split; [done|]. set (dE' := total_and_kinetic _ _ _ (mPos m1) _ - _) in *.
  destruct (boundary_facts _ (y_boundary y cap skin cut n Ho)) as [F1 F2 F3 F4 F6 F5]. pose proof (mo_cut _ _ _ _ _ Ho) as Hc0.
  assert (Hcap : length (clTags (sCells s)) = cap).
  { destruct (holding_clinv (yM y) cap HM (bGen (yB y)) (bLens (yB y)) cut nm (yAtoms y) F1 Hc0 HGm _ _ Hsy) as (h & I & _). by apply (ci_cap _ _ _ _ _ _ I). }
  destruct (metropolis (boltzmann beta dE') r) eqn:Ea.
  - apply obind_Ok in H as (s1 & Hb & [= <- <- <- <-]).
    split; [done|]. split; [by symmetry|].
    split; [intros a; by rewrite (mc_build_types _ _ _ _ _ _ _ _ Hb)|]. split; [apply R1|]. intros Hcr.
    destruct (mc_energy_correct (yM y) cap (yB y) (yMask y) u cut [] None nm (yAtoms y) (MC (mPos m1) (sTy s) (sCells s)) HM) as (s2 & E & Hs2 & P2 & _); try done.
    + by apply (y_boundary y cap skin cut n Ho).
    + by apply (mo_nodup _ _ _ _ _ Ho).
    + intros a Ha. split; [by apply (mo_cap _ _ _ _ _ Ho)|by apply (ar_near _ _ _ _ _ _ _ R1)].
    + rewrite Hb in E. injection E as <-. split; [done|]. intros a Ha. by rewrite P2, decide_True.
  - injection H as <- <- <- <-. split; [done|]. split; [by symmetry|]. cbn [sTy sPos sCells]. split; [done|]. split; [apply R1|].
    assert (Hp : forall a, a ∈ yAtoms y -> fold_left (fun p a => move p a (sPos s a)) (yAtoms y) (mPos m1) a = sPos s a).
    { intros a Ha. apply restore_positions. by left. }
    split; [|done]. destruct Hsy as (l0 & l1 & ops & L0 & L1 & L2 & L3 & L4). exists l0, l1, ops. cbn [sCells sPos]. split; [done|]. split; [done|]. split; [done|]. split; [done|].
    intros a. rewrite L4. case_decide; [|done]. by rewrite Hp.
Qed.

(** ** C97: moves whose integrator is not set up *)

Lemma table_get_unset nType i : table_get (nve_read nType) i = UB.
Proof.
  unfold table_get, zget, nve_read. destruct (decide _); [|done]. unfold aget. destruct (repeat None nType !! Z.to_nat i) as [o|] eqn:E; [|done].
  apply elem_of_list_lookup_2, elem_of_list_In, repeat_spec in E as ->. done.
Qed.
(** MdMove in a simulation whose moves have just been read: any system with an atom, any configuration, any number of steps but
    none.  The first step reads elements of prefactors_ that were never assigned. *)
Theorem md_move_unset_refuted :
  forall y nType N g temp pos vel F p m, yAtoms y <> [] -> md_start y pos (boltzmann_velocities y temp g vel).1 F p = Ok m ->
  md_move y (simulate_begin (nve_read nType)) (S N) g temp pos vel F p = UB.
Proof.
  intros y nType N g temp pos vel F p m Hne Hm. unfold md_move, simulate_begin. rewrite Hm. cbn [obind table_run]. unfold table_step, table_integrate1.
  destruct (yAtoms y) as [|a l]; [done|]. cbn [foldM]. rewrite table_get_unset. done.
Qed.

Lemma table_get_set mass dt nType i : (0 <= i < Z.of_nat nType)%Z -> table_get (nve_setup mass dt (nve_read nType)) i = Ok (1/2 * dt / mass i).
Proof.
  intros Hi. unfold table_get. rewrite (proj2 (zget_Ok (nve_setup mass dt (nve_read nType)) i (Some (1/2 * dt / mass i)))); [done|]. split; [lia|].
  unfold nve_setup, nve_read. rewrite list_lookup_imap.
  assert ((repeat (@None R) nType) !! Z.to_nat i = Some None) as ->.
  { change (repeat (@None R) nType) with (repeat (@None R) nType). rewrite <- (repeat_length (@None R) nType) in Hi.
    destruct (lookup_lt_is_Some_2 (repeat (@None R) nType) (Z.to_nat i) ltac:(lia)) as [o E]. rewrite E.
    apply elem_of_list_lookup_2, elem_of_list_In, repeat_spec in E as ->. done. }
  cbn. by rewrite Z2Nat.id by lia.
Qed.
Lemma table_run_set y nType N : (forall a, a ∈ yAtoms y -> (0 <= yTy y a < Z.of_nat nType)%Z) ->
  forall m, table_run y (nve_setup (yMass y) (yDt y) (nve_read nType)) N m = nve_run y N m.
Proof.
  intros Ht. set (t := nve_setup _ _ _).
  assert (Hg : forall a, a ∈ yAtoms y -> table_get t (yTy y a) = Ok (prefactor y a)) by (intros a Ha; unfold t; by rewrite table_get_set by auto).
  assert (E1 : forall F s, table_integrate1 y t F s = Ok (integrate1 y F s)).
  { intros F. unfold table_integrate1, integrate1. revert Hg. generalize (yAtoms y). intros l. induction l as [|a l IH]; intros Hg [pos vel]; cbn [foldM fold_left]; [done|].
    rewrite Hg by left. cbn [obind]. apply IH. intros b Hb. apply Hg. by right. }
  assert (E2 : forall F v, table_integrate2 y t F v = Ok (integrate2 y F v)).
  { intros F. unfold table_integrate2, integrate2. revert Hg. generalize (yAtoms y). intros l. induction l as [|a l IH]; intros Hg vel; cbn [foldM fold_left]; [done|].
    rewrite Hg by left. cbn [obind]. apply IH. intros b Hb. apply Hg. by right. }
  unfold nve_run. induction N as [|N IH]; intros m; cbn [table_run vv_run]; [done|].
  assert (table_step y t m = vv_step y (nve_calc y) m) as ->; [|destruct (vv_step y (nve_calc y) m); cbn [obind]; [apply IH|done..]].
  unfold table_step, vv_step. rewrite E1. cbn [obind]. destruct (integrate1 y (mFrc m) (mPos m, mVel m)) as [pos vel].
  destruct (nve_calc y pos (mFrc m) (mX m)) as [[[q F2] x]| |]; cbn [obind]; [|done..]. rewrite E2. done.
Qed.
(** HybridMdMove, which calls setup(), integrates with the masses of the atoms. *)
Theorem hybrid_move_set :
  forall y nType N g temp pos vel F p, (forall a, a ∈ yAtoms y -> (0 <= yTy y a < Z.of_nat nType)%Z) ->
  hybrid_md y (simulate_begin (nve_read nType)) N g temp pos vel F p =
  (let? m := md_start y pos (boltzmann_velocities y temp g vel).1 F p in nve_run y N m).
Proof.
  intros y nType N g temp pos vel F p Ht. unfold hybrid_md, simulate_begin. destruct (md_start _ _ _ _ _) as [m| |]; cbn [obind]; [|done..].
  by apply table_run_set.
Qed.

(** ** HybridNphMdMove after a rejection *)
(** The lengths of the box and the positions are as they were, whatever the run did to them; the lattice system of the boundary
    becomes orthorhombic, even if it was cubic or tetragonal. *)
Theorem nph_reject_restores :
  forall y lens old b l pos, box_of b l -> let (b', pos') := nph_reject y lens old b pos in
  oLen b' = lens /\ oLat b' = Orthorhombic /\ forall a, a ∈ yAtoms y -> pos' a = old a.
Proof.
  intros y lens old b l pos Hb. unfold nph_reject. split; [by apply (set_len b l)|]. split; [done|]. intros a Ha. apply restore_positions. by left.
Qed.
