(** Properties C46, C47, C49 and C50: Monte Carlo moves. *)
From stdpp Require Import gmap.
From Verif Require Import Base Vec3 BoxSpec OrthoModel OrthoSpec OrthoProofs OrthoProps MonoModel MonoSpec MonoProofs MonoProps.
From Verif Require Import McCellModel DomainModel DomainProofs SpeciesModel SpeciesProofs.
From Verif Require Import CellListModel CellListSpec CellListProofs CellListProps PairListModel PairListSpec PairListProofs PairListProps.
From Verif Require Import EnergyModel EnergySpec EnergyProofs MoveModel MoveSpec MoveProofs EnergyProps.
From Coq Require Import Reals Lra.
Local Open Scope R_scope.

(** ** C46 *)

(** C46 for AtomDisplaceMove.  Take either boundary, any masks, pair interaction, bonded potentials (including links) and
    external potential, any configuration held by the cell list and any displacement of at most one cell, such that no cell
    holds more than MaxAtomCell - 1 atoms afterwards.  The move runs without error; the energy difference it uses is the
    difference of the total potential energies of the trial and the old configuration; if it accepts, the new state is the
    trial configuration and the cell list holds it; if not, the state is the old one. *)
Theorem atom_displace_exact :
  forall M cap B masked u cut kinds ext beta n atoms s a d r,
  (2 <= M)%nat -> a_boundary B -> interaction_ok cut u -> (forall i j, masked i j = masked j i) ->
  grid_of (bLens B) cut n -> NoDup atoms -> Forall (kind_ok atoms) kinds ->
  synced M cap (bGen B) (bLens B) cut n atoms s -> a ∈ atoms -> near_cell_of (bBrav B) (vadd (sPos s a) d) ->
  let pos' := fun b => if decide (b = a) then bWrap B (vadd (sPos s a) d) else sPos s b in
  ~ crowded (bGen B) n (M - 1) atoms pos' ->
  let E := total_energy (bDist B) masked u kinds ext atoms in
  let dE := E pos' (sTy s) - E (sPos s) (sTy s) in
  exists s' ok, atom_displace M (bGen B) (bDist B) (bWrap B) masked u kinds ext beta s a d r = Ok (dE, s', ok) /\
    ok = metropolis (boltzmann beta dE) r /\
    if ok then (forall b, sPos s' b = pos' b) /\ (forall b, sTy s' b = sTy s b) /\ synced M cap (bGen B) (bLens B) cut n atoms s'
    else same_state s' s.
Proof.
  intros M cap B masked u cut kinds ext beta n atoms s a d r HM HB (Hc & Hcut & Hu) Hm HG Hnd Hk Hs Ha Hnear pos' Hcr E dE.
  pose proof (boundary_facts B HB) as F. pose proof (boundary_adj B cut n HB Hc HG) as Hadj.
  pose proof (displace_gen M cap HM (bGen B) (bDist B) (bWrap B) (bLens B) n masked u cut kinds ext (fun a => a) beta atoms Hnd (bf_pos B F) Hc HG
    Hadj Hcut (bf_sym B F) Hu Hm Hk s a d r Hs Ha) as H. cbv zeta in H. apply H; [|done].
  rewrite move_eq. by apply F.
Qed.

(** Translations and the minimum image. *)
Section Translate.
  Context (b : ortho) (Hb : a_box b).
  Lemma translate_lattice p q d : near_cell_of (oBrav b) (vadd p d) -> near_cell_of (oBrav b) (vadd q d) ->
    exists k, vsub p q = vadd (vsub (shift1 b (vadd p d)) (shift1 b (vadd q d))) (lattice_vector (oBrav b) k).
  Proof.
    intros Hp Hq. destruct (OrthoModel.shift b (vadd p d) (V3 0 0 0)%Z) as [r s] eqn:Es.
    destruct (ortho_shift_wraps b _ _ _ _ Hb (near_ortho b _ Hb Hp) Es) as (_ & E1 & _ & -> & _).
    destruct (OrthoModel.shift b (vadd q d) (V3 0 0 0)%Z) as [r' s'] eqn:Es'.
    destruct (ortho_shift_wraps b _ _ _ _ Hb (near_ortho b _ Hb Hq) Es') as (_ & E2 & _ & -> & _).
    exists (V3 (vx s - vx s') (vy s - vy s') (vz s - vz s'))%Z.
    destruct (owf_a_box b Hb) as (l & lat & W). rewrite (w_brav _ _ _ W). rewrite (w_len _ _ _ W) in E1, E2.
    apply vec3_ext. intros i Hi. specialize (E1 i Hi). specialize (E2 i Hi).
    assert (HV : forall w t, vget (vadd w (lattice_vector (diag (vget l)) t)) i = vget w i + IZR (vget t i) * vget l i).
    { intros w t. rewrite <- lattice_diag by done. destruct w. destruct i as [|[|[|]]]; try lia; done. }
    rewrite HV. assert (vget (V3 (vx s - vx s') (vy s - vy s') (vz s - vz s'))%Z i = (vget s i - vget s' i)%Z) as ->.
    { destruct s, s'. destruct i as [|[|[|]]]; try lia; done. }
    rewrite !minus_IZR in *. destruct p as [x y z], q as [x' y' z'], d as [dx dy dz], r as [rx ry rz], r' as [rx' ry' rz'].
    destruct i as [|[|[|]]]; try lia; cbn [vget vx vy vz vadd vsub] in *; lra.
  Qed.
  Lemma shift_in p d : near_cell_of (oBrav b) (vadd p d) -> in_box b (shift1 b (vadd p d)).
  Proof.
    intros Hp. destruct (OrthoModel.shift b (vadd p d) (V3 0 0 0)%Z) as [r s] eqn:Es.
    by destruct (ortho_shift_wraps b _ _ _ _ Hb (near_ortho b _ Hb Hp) Es) as (Hin & _ & _ & -> & _).
  Qed.
  Lemma in_box_32 p q : in_box b p -> in_box b q -> forall i, (i < 3)%nat -> Rabs (vget p i - vget q i) <= 3/2 * vget (oLen b) i.
  Proof. intros Hp Hq i Hi. specialize (Hp i Hi). specialize (Hq i Hi). apply Rabs_le. lra. Qed.
  Lemma lattice_add v k m : vadd (vadd v (lattice_vector (oBrav b) k)) (lattice_vector (oBrav b) m) =
    vadd v (lattice_vector (oBrav b) (V3 (vx k + vx m) (vy k + vy m) (vz k + vz m))%Z).
  Proof. unfold lattice_vector, combo, vadd, vscale, vmap. cbn [vx vy vz]. rewrite !plus_IZR. f_equal; ring. Qed.

  Lemma dist_translate p q d : in_box b p -> in_box b q -> near_cell_of (oBrav b) (vadd p d) -> near_cell_of (oBrav b) (vadd q d) ->
    distanceSq b (shift1 b (vadd p d)) (shift1 b (vadd q d)) = distanceSq b p q.
  Proof.
    intros Hp Hq Np Nq. destruct (translate_lattice p q d Np Nq) as [k Ek].
    pose proof (ortho_distanceSq_min_image b p q Hb (in_box_32 p q Hp Hq)) as H1.
    destruct (distanceSq_shift b p q) as [d1 t1], (distanceSq_dr b p q) as [d1' v1].
    destruct H1 as (E1 & _ & V1 & N1 & M1 & _).
    set (p' := shift1 b (vadd p d)) in *. set (q' := shift1 b (vadd q d)) in *.
    pose proof (ortho_distanceSq_min_image b p' q' Hb (in_box_32 p' q' (shift_in p d Np) (shift_in q d Nq))) as H2.
    destruct (distanceSq_shift b p' q') as [d2 t2], (distanceSq_dr b p' q') as [d2' v2].
    destruct H2 as (E2 & _ & V2 & N2 & M2 & _).
    rewrite <- E1, <- E2. apply Rle_antisym.
    - rewrite N1, V1, Ek, lattice_add. apply M2.
    - rewrite N2, V2. assert (vsub p' q' = vadd (vsub p q) (lattice_vector (oBrav b) (V3 (- vx k) (- vy k) (- vz k))%Z)) as ->.
      { rewrite Ek, lattice_add. unfold lattice_vector, combo, vadd, vscale, vmap. cbn [vx vy vz]. rewrite !plus_IZR, !opp_IZR.
        destruct p' as [x1 y1 z1], q' as [x2 y2 z2]. unfold vsub. cbn [vx vy vz]. f_equal; ring. }
      rewrite lattice_add. apply M1.
  Qed.

  (** The separation set by distanceSq(p, q, dr). *)
  Definition sepv (p q : vec3 R) : vec3 R := (distanceSq_dr b p q).2.
  (** Some coordinates differ by half a box length, up to whole lengths: there are two nearest images. *)
  Definition tied (p q : vec3 R) : Prop := exists i m, (i < 3)%nat /\ vget p i - vget q i + IZR m * vget (oLen b) i = vget (oLen b) i / 2.
  Lemma sep_translate p q d : in_box b p -> in_box b q -> near_cell_of (oBrav b) (vadd p d) -> near_cell_of (oBrav b) (vadd q d) ->
    ~ tied p q -> sepv (shift1 b (vadd p d)) (shift1 b (vadd q d)) = sepv p q.
  Proof.
    intros Hp Hq Np Nq Ht. destruct (translate_lattice p q d Np Nq) as [k Ek]. unfold sepv.
    pose proof (ortho_distanceSq_min_image b p q Hb (in_box_32 p q Hp Hq)) as H1.
    destruct (distanceSq_shift b p q) as [d1 t1], (distanceSq_dr b p q) as [d1' v1].
    destruct H1 as (_ & _ & V1 & _ & _ & _ & _ & I1).
    set (p' := shift1 b (vadd p d)) in *. set (q' := shift1 b (vadd q d)) in *.
    pose proof (ortho_distanceSq_min_image b p' q' Hb (in_box_32 p' q' (shift_in p d Np) (shift_in q d Nq))) as H2.
    destruct (distanceSq_shift b p' q') as [d2 t2], (distanceSq_dr b p' q') as [d2' v2].
    destruct H2 as (_ & _ & V2 & _ & _ & _ & _ & I2). cbn [snd].
    destruct (owf_a_box b Hb) as (l & lat & W). unfold tied in Ht. rewrite (w_len _ _ _ W) in Ht.
    assert (HI : forall v, isMinImageCart b v = true -> forall i, (i < 3)%nat -> - (vget l i / 2) <= vget v i <= vget l i / 2).
    { intros v. unfold isMinImageCart. rewrite (w_half _ _ _ W). cbn [vx vy vz].
      repeat (destruct (Rgt_dec _ _); [done|]). intros _ i Hi. assert (forall x h, ~ Rabs x > h -> - h <= x <= h) as HA by (intros x h; unfold Rabs; destruct (Rcase_abs x); lra).
      destruct i as [|[|[|]]]; try lia; cbn [vget]; by apply HA. }
    assert (HV : forall w t i, (i < 3)%nat -> vget (vadd w (lattice_vector (oBrav b) t)) i = vget w i + IZR (vget t i) * vget l i).
    { intros w t i Hi. rewrite (w_brav _ _ _ W), <- lattice_diag by done. destruct w. destruct i as [|[|[|]]]; try lia; done. }
    apply vec3_ext. intros i Hi.
    pose proof (HI v1 I1 i Hi) as B1. pose proof (HI v2 I2 i Hi) as B2.
    assert (vget v1 i = vget (vsub p q) i + IZR (vget t1 i) * vget l i) as C1 by (rewrite V1; by apply HV).
    assert (vget v2 i = vget (vsub p' q') i + IZR (vget t2 i) * vget l i) as C2 by (rewrite V2; by apply HV).
    assert (vget (vsub p q) i = vget (vsub p' q') i + IZR (vget k i) * vget l i) as C3 by (rewrite Ek; by apply HV).
    assert (vget (vsub p q) i = vget p i - vget q i) as C4 by (destruct p, q; destruct i as [|[|[|]]]; try lia; done).
    pose proof (pos3_get l i (w_pos _ _ _ W)) as HL.
    assert (vget v1 i <> vget l i / 2) as T1. { intros E. apply Ht. exists i, (vget t1 i). split; [done|]. lra. }
    assert (vget v2 i <> vget l i / 2) as T2.
    { intros E. apply Ht. exists i, (vget t2 i - vget k i)%Z. split; [done|]. rewrite minus_IZR. lra. }
    set (z := (vget t1 i + vget k i - vget t2 i)%Z). assert (vget v1 i - vget v2 i = IZR z * vget l i) as Ez.
    { unfold z. rewrite minus_IZR, plus_IZR. lra. }
    assert (z = 0%Z) as Hz.
    { destruct (Z_dec z 0) as [[Hlt|Hgt]|]; [| |done].
      - assert (IZR z <= -1) by (apply (IZR_le z (-1)); lia). exfalso. nra.
      - assert (1 <= IZR z) by (apply (IZR_le 1 z); lia). exfalso. nra. }
    rewrite Hz in Ez. lra.
  Qed.
End Translate.

(** C46 for RigidDisplaceMove, nonbonded part, either boundary.  If no two atoms of the molecule interact by the pair
    potential (all pairs in the molecule are masked), the energy difference used is the change of the pair and external
    energies, and the move ends in the trial configuration or the old one.  Without that condition the claim is false, see
    [rigid_displace_refuted]. *)
Theorem rigid_displace_nonbonded_partial :
  forall M cap B masked u cut ext beta n atoms s mol d r,
  (2 <= M)%nat -> a_boundary B -> interaction_ok cut u -> (forall i j, masked i j = masked j i) ->
  grid_of (bLens B) cut n -> NoDup atoms ->
  synced M cap (bGen B) (bLens B) cut n atoms s -> mol ⊆ atoms -> NoDup mol ->
  (forall i j, i ∈ mol -> j ∈ mol -> i <> j -> masked i j = true) ->
  (forall a, a ∈ mol -> near_cell_of (bBrav B) (vadd (sPos s a) d)) ->
  let pos' := fun b => if decide (b ∈ mol) then bWrap B (vadd (sPos s b) d) else sPos s b in
  (forall k, (k <= length mol)%nat -> ~ crowded (bGen B) n (M - 1) atoms (midway mol k pos' (sPos s))) ->
  let E := fun p => pair_energy (bDist B) masked u atoms p (sTy s) + external_energy ext atoms p (sTy s) in
  let dE := E pos' - E (sPos s) in
  exists s' ok, rigid_displace M (bGen B) (bDist B) (bWrap B) masked u ext beta s mol d r = Ok (dE, s', ok) /\
    ok = metropolis (boltzmann beta dE) r /\
    if ok then (forall b, sPos s' b = pos' b) /\ (forall b, sTy s' b = sTy s b) /\ synced M cap (bGen B) (bLens B) cut n atoms s'
    else same_state s' s.
Proof.
  intros M cap B masked u cut ext beta n atoms s mol d r HM HB (Hc & Hcut & Hu) Hm HG Hnd Hs Hsub Hmn Hmask Hnear pos' Hcr E dE.
  pose proof (boundary_facts B HB) as F. pose proof (boundary_adj B cut n HB Hc HG) as Hadj.
  pose proof (rigid_gen M cap HM (bGen B) (bDist B) (bWrap B) (bLens B) n masked u cut ext (fun a => a) beta atoms Hnd (bf_pos B F) Hc HG
    Hadj Hcut (bf_sym B F) Hu Hm s mol d r Hs Hsub Hmn Hmask) as H. cbv zeta in H. apply H; [|done].
  intros a Ha. apply F. by apply Hnear.
Qed.

(** The bonded potentials for which a rigid displacement of [mol] from [pos] changes no energy: each group lies in the
    molecule or outside it, and the energy is that of a bond, or that of an angle or dihedral none of whose atoms have two
    nearest images of each other. *)
Definition rigid_kind (b : ortho) (mol : list nat) (pos : nat -> vec3 R) (k : gkind) : Prop :=
  (forall m g, m ∈ kMols k -> g ∈ kGrp k m -> (forall a, a ∈ gAt g -> a ∈ mol) \/ (forall a, a ∈ gAt g -> a ∉ mol)) /\
  ((exists v, kE k = bond_kE (distanceSq b) v) \/
   (((exists v, kE k = angle_kE (sepv b) (distanceSq b) v) \/ (exists v, kE k = dihedral_kE (sepv b) v)) /\
    forall m g i j, m ∈ kMols k -> g ∈ kGrp k m -> i ∈ gAt g -> j ∈ gAt g -> ~ tied b (pos i) (pos j))).

Lemma rigid_bonded b mol pos d k : a_box b -> (forall a, a ∈ mol -> in_box b (pos a) /\ near_cell_of (oBrav b) (vadd (pos a) d)) ->
  rigid_kind b mol pos k ->
  bonded_energy (fun a => if decide (a ∈ mol) then shift1 b (vadd (pos a) d) else pos a) k = bonded_energy pos k.
Proof.
  intros Hb Hin [Hgr Hk]. unfold bonded_energy. apply sum_ext. intros m Hm. apply sum_ext. intros g Hg.
  set (pos' := fun a => _). destruct (Hgr m g Hm Hg) as [Hall|Hall].
  2:{ f_equal. apply map_ext_in. intros a Ha. apply elem_of_list_In in Ha. unfold pos'. by rewrite decide_False by auto. }
  assert (HP : forall a, a ∈ gAt g -> pos' a = shift1 b (vadd (pos a) d)).
  { intros a Ha. unfold pos'. by rewrite decide_True by auto. }
  assert (HD : forall i j, i ∈ gAt g -> j ∈ gAt g -> distanceSq b (pos' i) (pos' j) = distanceSq b (pos i) (pos j)).
  { intros i j Hi Hj. rewrite !HP by done. destruct (Hin i (Hall i Hi)), (Hin j (Hall j Hj)). by apply dist_translate. }
  assert (HS : forall i j, i ∈ gAt g -> j ∈ gAt g -> ~ tied b (pos i) (pos j) -> sepv b (pos' i) (pos' j) = sepv b (pos i) (pos j)).
  { intros i j Hi Hj Ht. rewrite !HP by done. destruct (Hin i (Hall i Hi)), (Hin j (Hall j Hj)). by apply sep_translate. }
  destruct Hk as [[v ->]|[[[v ->]|[v ->]] Hties]].
  - unfold bond_kE. destruct (gAt g) as [|i [|j [|]]] eqn:E; cbn [map]; try done.
    rewrite HD; [done|left|right; left].
  - unfold angle_kE. destruct (gAt g) as [|i [|j [|k' [|]]]] eqn:E; cbn [map]; try done.
    assert (i ∈ gAt g /\ j ∈ gAt g /\ k' ∈ gAt g) as (I1 & I2 & I3) by (rewrite E, !elem_of_cons; tauto). rewrite <- E in HD, HS.
    rewrite !HD by (done || (rewrite E, !elem_of_cons; tauto)). rewrite !HS; try done; apply (Hties m g); done.
  - unfold dihedral_kE. destruct (gAt g) as [|i [|j [|k' [|l' [|]]]]] eqn:E; cbn [map]; try done.
    assert (i ∈ gAt g /\ j ∈ gAt g /\ k' ∈ gAt g /\ l' ∈ gAt g) as (I1 & I2 & I3 & I4) by (rewrite E, !elem_of_cons; tauto). rewrite <- E in HS.
    rewrite !HS; try done; by apply (Hties m g).
Qed.

(** C46 for RigidDisplaceMove in an orthorhombic box: under the same condition the energy difference used is the change of
    the total potential energy, for bonds, angles and dihedrals ([rigid_kind]). *)
Theorem rigid_displace_exact_partial :
  forall M cap b masked u cut kinds ext beta n atoms s mol d r,
  (2 <= M)%nat -> a_box b -> interaction_ok cut u -> (forall i j, masked i j = masked j i) ->
  grid_of (oLen b) cut n -> NoDup atoms ->
  synced M cap (cartToGen b) (oLen b) cut n atoms s -> mol ⊆ atoms -> NoDup mol ->
  (forall i j, i ∈ mol -> j ∈ mol -> i <> j -> masked i j = true) ->
  Forall (rigid_kind b mol (sPos s)) kinds ->
  (forall a, a ∈ mol -> near_cell_of (oBrav b) (vadd (sPos s a) d)) ->
  let pos' := fun a => if decide (a ∈ mol) then shift1 b (vadd (sPos s a) d) else sPos s a in
  (forall k, (k <= length mol)%nat -> ~ crowded (cartToGen b) n (M - 1) atoms (midway mol k pos' (sPos s))) ->
  let E := total_energy (distanceSq b) masked u kinds ext atoms in
  let dE := E pos' (sTy s) - E (sPos s) (sTy s) in
  exists s' ok, rigid_displace M (cartToGen b) (distanceSq b) (shift1 b) masked u ext beta s mol d r = Ok (dE, s', ok) /\
    ok = metropolis (boltzmann beta dE) r /\
    if ok then (forall a, sPos s' a = pos' a) /\ (forall a, sTy s' a = sTy s a) /\ synced M cap (cartToGen b) (oLen b) cut n atoms s'
    else same_state s' s.
Proof.
  intros M cap b masked u cut kinds ext beta n atoms s mol d r HM Hb Hi Hm HG Hnd Hs Hsub Hmn Hmask Hkinds Hnear pos' Hcr E dE.
  assert (HB : a_boundary (ortho_bd b)) by (left; eauto).
  pose proof (rigid_displace_nonbonded_partial M cap (ortho_bd b) masked u cut ext beta n atoms s mol d r HM HB Hi Hm HG Hnd Hs Hsub Hmn Hmask Hnear Hcr) as H.
  cbv zeta in H. cbn [ortho_bd bGen bDist bWrap bLens] in H. fold pos' in H.
  replace dE with (pair_energy (distanceSq b) masked u atoms pos' (sTy s) + external_energy ext atoms pos' (sTy s) -
    (pair_energy (distanceSq b) masked u atoms (sPos s) (sTy s) + external_energy ext atoms (sPos s) (sTy s))); [exact H|].
  unfold dE, E, total_energy. rewrite (sum_ext (bonded_energy pos') (bonded_energy (sPos s))); [ring|].
  intros k Hk. rewrite Forall_forall in Hkinds. apply rigid_bonded; [done| |by apply Hkinds].
  intros a Ha. split; [|by apply Hnear]. destruct (ortho_transforms_inverse b Hb) as (_ & _ & _ & _ & Hbox). apply Hbox.
  apply (holding_prim M cap HM (cartToGen b) (oLen b) cut n atoms (bf_pos _ (boundary_facts _ HB)) (proj1 Hi) HG _ _ a Hs). by apply Hsub.
Qed.

(** ** Examples for C46 *)

(** The box, atoms and potentials of [mc_energy_example], after buildCellList. *)
Definition ex_in (a : nat) : vec3 R := match a with 1%nat => V3 (48/5) 1 1 | _ => ex_pos a end.
Definition ex_atoms : list nat := [0; 1; 2; 3]%nat.
Lemma ex_ix : interaction_ok 1 ex_u.
Proof. split; [lra|]. split; intros; unfold ex_u; [destruct (Rlt_dec _ _); lra|done]. Qed.
Lemma ex_sym i j : ex_mask2 i j = ex_mask2 j i.
Proof. unfold ex_mask2. apply bool_decide_ext. tauto. Qed.
Lemma ex_nodup : NoDup ex_atoms.
Proof. apply (bool_decide_eq_true_1 (NoDup _)). reflexivity. Qed.
Lemma ex_grid10 : grid_of (oLen ex_box) 1 (V3 10 10 10)%Z.
Proof. apply mc_energy_example. Qed.
Lemma ex_built ty : exists s, synced 61 4 (cartToGen ex_box) (oLen ex_box) 1 (V3 10 10 10)%Z ex_atoms s /\
  (forall a, a ∈ ex_atoms -> sPos s a = ex_in a) /\ (forall a, sTy s a = ty a).
Proof.
  destruct mc_energy_example as (HB & Hi & HG & Hk & Hat & Hcr & _).
  destruct (mc_energy_correct 61 4 (ortho_bd ex_box) ex_mask2 ex_u 1 [ex_bonds] None (V3 10 10 10)%Z ex_atoms (MC ex_pos ty (cl_new 4)))
    as (s' & E & Hs & HP & HT & _); [lia|done|done|done|apply ex_nodup|done|done|done|].
  exists s'. split; [done|]. split; [|done]. intros a Ha. rewrite HP, decide_True by done. apply ex_wrap.
Qed.
Lemma box_near p : (forall i, (i < 3)%nat -> -10 <= vget p i < 20) -> near_cell_of (oBrav ex_box) p.
Proof.
  intros H. destruct ex_wf as [lat W]. rewrite (w_brav _ _ _ W). exists (vscale (1/10) p). split.
  - destruct p as [x y z]. unfold combo, vadd, vscale, diag. cbn. f_equal; lra.
  - intros i Hi. specialize (H i Hi). destruct p as [x y z]. destruct i as [|[|[|]]]; try lia; cbn in *; lra.
Qed.

(** The hypotheses of [atom_displace_exact] and [rigid_displace_exact_partial] hold: atom 1 moves by 1, through the face of
    the box; atoms 2 and 3, bonded and masked, move together by (6, 0, 0), also through a face. *)
Example displace_example :
  exists s, synced 61 4 (cartToGen ex_box) (oLen ex_box) 1 (V3 10 10 10)%Z ex_atoms s /\
    Forall (kind_ok ex_atoms) [ex_bonds] /\ (forall i j, ex_mask2 i j = ex_mask2 j i) /\
    near_cell_of (oBrav ex_box) (vadd (sPos s 1%nat) (V3 1 0 0)) /\
    shift1 ex_box (vadd (sPos s 1%nat) (V3 1 0 0)) = V3 (3/5) 1 1 /\
    (forall pos, ~ crowded (cartToGen ex_box) (V3 10 10 10)%Z (61 - 1) ex_atoms pos) /\
    (forall i j, i ∈ [2; 3]%nat -> j ∈ [2; 3]%nat -> i <> j -> ex_mask2 i j = true) /\
    Forall (rigid_kind ex_box [2; 3]%nat (sPos s)) [ex_bonds] /\
    (forall a, a ∈ [2; 3]%nat -> near_cell_of (oBrav ex_box) (vadd (sPos s a) (V3 6 0 0))) /\
    shift1 ex_box (vadd (sPos s 2%nat) (V3 6 0 0)) = V3 1 5 5.
Proof.
  destruct (ex_built (fun _ => 0%Z)) as (s & Hs & HP & HT). exists s. destruct ex_wf as [lat W].
  assert (P1 : sPos s 1%nat = V3 (48/5) 1 1) by (rewrite HP by (unfold ex_atoms; rewrite !elem_of_cons; tauto); done).
  assert (P2 : sPos s 2%nat = V3 5 5 5) by (rewrite HP by (unfold ex_atoms; rewrite !elem_of_cons; tauto); done).
  assert (P3 : sPos s 3%nat = V3 5 5 6) by (rewrite HP by (unfold ex_atoms; rewrite !elem_of_cons; tauto); done).
  assert (SH : forall p, shift1 ex_box p = V3 (shift1_axis 0 10 10 (vx p)) (shift1_axis 0 10 10 (vy p)) (shift1_axis 0 10 10 (vz p))).
  { intros p. unfold shift1. rewrite (w_min _ _ _ W), (w_max _ _ _ W), (w_len _ _ _ W). done. }
  split; [done|]. split; [constructor; [apply mc_energy_example|constructor]|]. split; [apply ex_sym|].
  split. { rewrite P1. apply box_near. intros [|[|[|]]] Hi; try lia; cbn; lra. }
  split. { rewrite P1, SH. unfold shift1_axis, vadd. cbn [vx vy vz]. repeat destruct (Rge_dec _ _); repeat destruct (Rlt_dec _ _); try lra; f_equal; lra. }
  split. { intros pos. apply few_not_crowded. cbn. lia. }
  split. { intros i j Hi Hj Hij. rewrite !elem_of_cons, elem_of_nil in Hi, Hj. unfold ex_mask2. apply bool_decide_eq_true_2. lia. }
  split.
  { constructor; [|constructor]. split.
    - intros m g _ Hg. apply elem_of_list_singleton in Hg as ->. left. done.
    - left. eexists. done. }
  split. { intros a Ha. rewrite !elem_of_cons, elem_of_nil in Ha. destruct Ha as [->|[->|[]]]; rewrite ?P2, ?P3; apply box_near; intros [|[|[|]]] Hi; try lia; cbn; lra. }
  rewrite P2, SH. unfold shift1_axis, vadd. cbn [vx vy vz]. repeat destruct (Rge_dec _ _); repeat destruct (Rlt_dec _ _); try lra; f_equal; lra.
Qed.

(** ** C46 fails for RigidDisplaceMove when atoms of a molecule interact with each other *)

(** Two atoms of one molecule at distance 1, with a pair interaction of range 3 between them. *)
Definition rx_pos (a : nat) : vec3 R := match a with O => V3 1 1 1 | _ => V3 2 1 1 end.
Definition rx_u (r : R) (_ _ : Z) : R := if Rlt_dec r 9 then 9 - r else 0.
Lemma rx_adj c1 c2 : adjacent (V3 3 3 3)%Z c1 c2.
Proof.
  intros i Hi. exists (- ((vget c1 i - vget c2 i + 1) / 3))%Z. replace (vget (V3 3 3 3)%Z i) with 3%Z by (destruct i as [|[|[|]]]; done || lia).
  pose proof (Z.mod_pos_bound (vget c1 i - vget c2 i + 1) 3 ltac:(lia)). pose proof (Z.div_mod (vget c1 i - vget c2 i + 1) 3 ltac:(lia)). lia.
Qed.
Lemma rx_nodup : NoDup [0; 1]%nat.
Proof. apply (bool_decide_eq_true_1 (NoDup _)). reflexivity. Qed.
Lemma rx_near p : (forall i, (i < 3)%nat -> 0 <= vget p i < 10) -> primary (cartToGen ex_box p).
Proof.
  intros H. destruct (ortho_transforms_inverse ex_box ex_a_box) as (_ & _ & _ & _ & Hbox). unfold primary. rewrite <- Hbox.
  destruct ex_wf as [lat W]. intros i Hi. rewrite (w_len _ _ _ W). specialize (H i Hi). destruct i as [|[|[|]]]; cbn in *; lra || lia.
Qed.
Lemma rx_sq x y : Rabs (x - y) <= 5 -> distanceSq ex_box (V3 x 1 1) (V3 y 1 1) = (x - y) * (x - y).
Proof. intros H. rewrite (ex_dist _ _ _ _ _ _ _ _ eq_refl eq_refl), !sep_in by (rewrite ?Rminus_eq_0, ?Rabs_R0; lra). cbn [fst]. lra. Qed.
Lemma rx_shift x : 0 <= x < 10 -> shift1 ex_box (V3 x 1 1) = V3 x 1 1.
Proof.
  intros H. destruct ex_wf as [lat W]. unfold shift1. rewrite (w_min _ _ _ W), (w_max _ _ _ W), (w_len _ _ _ W). unfold shift1_axis. cbn [vget vx vy vz vzero].
  repeat destruct (Rge_dec _ _); repeat destruct (Rlt_dec _ _); try lra; f_equal; lra.
Qed.
Lemma rx_grid : grid_of (oLen ex_box) 3 (V3 3 3 3)%Z.
Proof.
  destruct ex_wf as [lat W]. rewrite (w_len _ _ _ W). intros [|[|[|]]] Hj; try lia; cbn [vget vx vy vz]; (split; [lia|]; split; [rewrite plus_IZR; lra|right; lra]).
Qed.
Lemma rx_ix : interaction_ok 3 rx_u.
Proof. split; [lra|]. split; intros; unfold rx_u; [destruct (Rlt_dec _ _); lra|done]. Qed.

(** The positions of atoms 0 and 1 are x0 and x1, and the energy of the pair is that of distance x0 - x1. *)
Lemma rx_pair s h a x0 x1 : clinv 61 2 (cartToGen ex_box) (V3 3 3 3)%Z (sCells s) h ->
  (forall j, (exists q, h !! j = Some q) <-> j ∈ [0; 1]%nat) -> a ∈ [0; 1]%nat ->
  sPos s 0%nat = V3 x0 1 1 -> sPos s 1%nat = V3 x1 1 1 -> 0 <= x0 < 10 -> 0 <= x1 < 10 -> Rabs (x0 - x1) <= 5 ->
  rigid_atom 61 (cartToGen ex_box) (distanceSq ex_box) (fun _ _ => false) rx_u None s a = Ok (rx_u ((x0 - x1) * (x0 - x1)) 0 0).
Proof.
  intros I Hh Ha P0 P1 H0 H1 Hx. unfold rigid_atom.
  assert (Hp : primary (cartToGen ex_box (sPos s a))).
  { rewrite !elem_of_cons, elem_of_nil in Ha. destruct Ha as [->|[->|[]]]; rewrite ?P0, ?P1; apply rx_near; intros [|[|[|]]]; cbn; (lra || lia). }
  destruct (pair_atom_nb 61 2 ltac:(lia) (cartToGen ex_box) (distanceSq ex_box) (V3 3 3 3)%Z (fun _ _ => false) rx_u s h a I Hp) as (nb & Hnd & Hel & ->).
  cbn [obind]. f_equal. unfold ext_atom. rewrite Rplus_0_r.
  assert (Hnb : nb ≡ₚ [0; 1]%nat).
  { apply NoDup_Permutation; [done|apply rx_nodup|].
    intros j. rewrite Hel, <- Hh. split; intros [q Hq]; exists q; [tauto|]. split; [done|apply rx_adj]. }
  rewrite (sum_perm _ _ _ Hnb), !sum_cons, sum_nil.
  assert (Hx' : Rabs (x1 - x0) <= 5) by (rewrite Rabs_minus_sym; done).
  unfold w. rewrite !elem_of_cons, elem_of_nil in Ha. destruct Ha as [->|[->|[]]].
  - rewrite decide_True, decide_False, P0, P1, rx_sq by done. unfold rx_u. lra.
  - rewrite decide_False, decide_True, P0, P1, rx_sq by done. unfold rx_u. replace ((x1 - x0) * (x1 - x0)) with ((x0 - x1) * (x0 - x1)) by ring. lra.
Qed.

(** C46 is false for RigidDisplaceMove as it stands: the new energies of the first atoms are computed while the other atoms
    of the molecule are still at their old positions.  A rigid displacement of a whole molecule, which changes no energy and
    has to be accepted always, is rejected with an energy difference of 1. *)
Theorem rigid_displace_refuted :
  exists s mol d s',
    synced 61 2 (cartToGen ex_box) (oLen ex_box) 3 (V3 3 3 3)%Z [0; 1]%nat s /\ interaction_ok 3 rx_u /\
    mol = [0; 1]%nat /\
    let pos' := fun a => if decide (a ∈ mol) then shift1 ex_box (vadd (sPos s a) d) else sPos s a in
    let E := total_energy (distanceSq ex_box) (fun _ _ => false) rx_u [] None [0; 1]%nat in
    E pos' (sTy s) - E (sPos s) (sTy s) = 0 /\ metropolis (boltzmann 1 0) (1/2) = true /\
    rigid_displace 61 (cartToGen ex_box) (distanceSq ex_box) (shift1 ex_box) (fun _ _ => false) rx_u None 1 s mol d (1/2)
      = Ok (1, s', false).
Proof.
  assert (HB : a_boundary (ortho_bd ex_box)) by (left; exists ex_box; split; [apply ex_a_box|done]).
  assert (Hnd : NoDup [0; 1]%nat) by apply rx_nodup.
  destruct (mc_energy_correct 61 2 (ortho_bd ex_box) (fun _ _ => false) rx_u 3 [] None (V3 3 3 3)%Z [0; 1]%nat (MC rx_pos (fun _ => 0%Z) (cl_new 2)))
    as (s & E & Hs & HP & HT & _); [lia|done|apply rx_ix|apply rx_grid|done|done| |apply few_not_crowded; cbn; lia|].
  { intros a Ha. cbn [sPos]. rewrite !elem_of_cons, elem_of_nil in Ha. split; [lia|]. apply box_near.
    destruct Ha as [->|[->|[]]]; intros [|[|[|]]] Hi; cbn; (lra || lia). }
  assert (P0 : sPos s 0%nat = V3 1 1 1) by (rewrite HP; cbn; apply rx_shift; lra).
  assert (P1 : sPos s 1%nat = V3 2 1 1) by (rewrite HP; cbn; apply rx_shift; lra).
  assert (HL : positive3 (oLen ex_box)) by apply (bf_pos _ (boundary_facts _ HB)).
  destruct (holding_clinv 61 2 ltac:(lia) (cartToGen ex_box) (oLen ex_box) 3 (V3 3 3 3)%Z [0; 1]%nat HL ltac:(lra) rx_grid _ _ Hs) as (h & I & Hh).
  assert (Hh' : forall j, (exists q, h !! j = Some q) <-> j ∈ [0; 1]%nat).
  { intros j. rewrite Hh. destruct (decide (j ∈ _)); split; try done; eauto. intros [? ?]. done. }
  set (s1 := MC (move (sPos s) 0%nat (V3 2 1 1)) (sTy s) (sCells s)).
  set (s2 := MC (move (sPos s1) 1%nat (V3 3 1 1)) (sTy s1) (sCells s1)).
  set (s3 := MC (move (move (sPos s2) 0%nat (V3 1 1 1)) 1%nat (V3 2 1 1)) (sTy s2) (sCells s2)).
  exists s, [0; 1]%nat, (V3 1 0 0), s3. split; [done|]. split; [apply rx_ix|]. split; [done|]. cbv zeta.
  assert (HM : metropolis (boltzmann 1 0) (1 / 2) = true).
  { unfold metropolis, boltzmann. rewrite Rmult_0_r, exp_0. destruct (Rlt_dec 1 1); [done|]. destruct (Rlt_dec _ _); [done|lra]. }
  assert (HM1 : metropolis (boltzmann 1 1) (1 / 2) = false).
  { unfold metropolis, boltzmann. replace (- (1) * 1) with (Ropp 1) by lra. rewrite exp_Ropp.
    pose proof (exp_ineq1 1 ltac:(lra)). assert (/ exp 1 < / 2) by (apply Rinv_lt_contravar; lra).
    destruct (Rlt_dec _ _); [lra|]. destruct (Rlt_dec _ _); [lra|done]. }
  split; [|split; [done|]].
  - set (pos' := fun a => if decide (a ∈ [0; 1]%nat) then _ else _).
    assert (Q0 : pos' 0%nat = V3 2 1 1).
    { unfold pos'. rewrite decide_True by left. rewrite P0, <- (rx_shift 2) by lra. unfold vadd. cbn [vx vy vz]. do 2 f_equal; lra. }
    assert (Q1 : pos' 1%nat = V3 3 1 1).
    { unfold pos'. rewrite decide_True by (right; left). rewrite P1, <- (rx_shift 3) by lra. unfold vadd. cbn [vx vy vz]. do 2 f_equal; lra. }
    assert (HE : forall p x y, p 0%nat = V3 x 1 1 -> p 1%nat = V3 y 1 1 -> y = x + 1 ->
      total_energy (distanceSq ex_box) (fun _ _ => false) rx_u [] None [0; 1]%nat p (sTy s) = rx_u 1 0 0).
    { intros p x y HX HY ->. unfold total_energy, pair_energy, external_energy. rewrite !sum_cons, !sum_nil, HX, HY.
      rewrite (decide_False (P := (0 < 0)%nat)) by lia. rewrite (decide_True (P := (0 < 1)%nat)) by lia.
      rewrite (decide_False (P := (1 < 0)%nat)) by lia. rewrite (decide_False (P := (1 < 1)%nat)) by lia.
      rewrite rx_sq by (apply Rabs_le; lra). replace ((x - (x + 1)) * (x - (x + 1))) with 1 by ring. unfold rx_u. lra. }
    rewrite (HE pos' 2 3), (HE (sPos s) 1 2); try done; lra.
  - assert (R0 : forall a, a ∈ [0; 1]%nat -> rigid_atom 61 (cartToGen ex_box) (distanceSq ex_box) (fun _ _ => false) rx_u None s a = Ok 8).
    { intros a Ha. rewrite (rx_pair s h a 1 2); try done; try lra; [|apply Rabs_le; lra]. f_equal. unfold rx_u. destruct (Rlt_dec _ _); lra. }
    assert (R1 : rigid_atom 61 (cartToGen ex_box) (distanceSq ex_box) (fun _ _ => false) rx_u None s1 0%nat = Ok 9).
    { rewrite (rx_pair s1 h 0%nat 2 2); try done; try lra; [|by left|apply Rabs_le; lra]. f_equal. unfold rx_u. destruct (Rlt_dec _ _); lra. }
    assert (R2 : rigid_atom 61 (cartToGen ex_box) (distanceSq ex_box) (fun _ _ => false) rx_u None s2 1%nat = Ok 8).
    { rewrite (rx_pair s2 h 1%nat 2 3); try done; try lra; [|right; left|apply Rabs_le; lra]. f_equal. unfold rx_u. destruct (Rlt_dec _ _); lra. }
    assert (A0 : shift1 ex_box (vadd (sPos s 0%nat) (V3 1 0 0)) = V3 2 1 1).
    { rewrite P0. unfold vadd; cbn [vx vy vz]. rewrite !Rplus_0_r. rewrite <- (rx_shift 2) by lra. do 2 f_equal; lra. }
    assert (A1 : shift1 ex_box (vadd (sPos s1 1%nat) (V3 1 0 0)) = V3 3 1 1).
    { change (sPos s1 1%nat) with (sPos s 1%nat). rewrite P1. unfold vadd; cbn [vx vy vz]. rewrite !Rplus_0_r. rewrite <- (rx_shift 3) by lra. do 2 f_equal; lra. }
    unfold rigid_displace. cbn [foldM]. rewrite (R0 0%nat) by left. cbn [obind]. rewrite (R0 1%nat) by (right; left). cbn [obind].
    unfold rigid_step at 1. rewrite A0. fold s1. rewrite R1. cbn [obind]. unfold rigid_step at 1. rewrite A1. fold s2. rewrite R2. cbn [obind].
    replace (0 + 9 + 8 - (0 + 8 + 8)) with 1 by lra. rewrite HM1. unfold s3. cbn [map zip fold_left]. cbn. rewrite P0, P1. done.
Qed.

(** ** C47: exchanging the ends of a chain, and changing the type of a molecule *)

Lemma bonded_mirror mol pos k : palindromic mol k -> bonded_energy (fun a => pos (mirror mol a)) k = bonded_energy pos k.
Proof.
  intros [HE Hp]. unfold bonded_energy. apply sum_ext. intros m Hm. destruct (Hp m Hm) as [Hperm|Hout].
  - rewrite <- (sum_perm (fun g => kE k (map pos (gAt g)) (gTy g)) _ _ Hperm), sum_map.
    apply sum_ext. intros g _. cbn [gAt gTy]. rewrite map_rev, HE, map_map. done.
  - apply sum_ext. intros g Hg. f_equal. apply map_ext_in. intros a Ha%elem_of_list_In. by rewrite mirror_out by eauto.
Qed.

Lemma window_rev {T} (l : list T) i k : (i + k <= length l)%nat -> rev (take k (drop i (rev l))) = take k (drop (length l - i - k) l).
Proof.
  intros H. rewrite skipn_rev, firstn_rev, rev_involutive, take_length_le by lia.
  rewrite take_drop_commute. f_equal. f_equal. lia.
Qed.
Lemma count_down N : map (fun i => (N - 1 - i)%nat) (seq 0 N) ≡ₚ seq 0 N.
Proof.
  apply NoDup_Permutation; [| apply NoDup_seq|].
  - apply NoDup_alt. intros i j x Hi Hj. apply list_lookup_fmap_inv in Hi as (a & -> & Hi), Hj as (b & E & Hj).
    apply lookup_seq in Hi, Hj. lia.
  - intros i. rewrite elem_of_list_fmap. setoid_rewrite elem_of_seq. split; [intros (j & -> & ?); lia|].
    intros H. exists (N - 1 - i)%nat. lia.
Qed.
(** Bonds (k = 2), angles (k = 3) and dihedrals (k = 4) of a linear chain, all of one type, are palindromic.  Homopolymer,
    Diblock, Multiblock and LinearSG give all bonds of a molecule one type (calculateBondTypeId). *)
Lemma chain_palindromic mol k t kd : NoDup mol -> (1 <= k <= length mol)%nat ->
  (forall ps t, kE kd (rev ps) t = kE kd ps t) ->
  (forall m, m ∈ kMols kd -> kGrp kd m = chain_groups mol k t \/ forall g a, g ∈ kGrp kd m -> a ∈ gAt g -> a ∉ mol) ->
  palindromic mol kd.
Proof.
  intros Hnd Hk HE Hg. split; [done|]. intros m Hm. destruct (Hg m Hm) as [->|H]; [left|by right].
  unfold chain_groups. rewrite map_map. set (N := (length mol + 1 - k)%nat). rewrite <- (count_down N) at 2. rewrite map_map.
  erewrite map_ext_in; [done|]. intros i Hi%in_seq. cbn [gAt gTy]. f_equal.
  change map with (@fmap list list_fmap) at 1. rewrite fmap_take, fmap_drop. change (mirror mol <$> mol) with (map (mirror mol) mol).
  rewrite mirror_rev by done. rewrite window_rev by lia. do 2 f_equal. lia.
Qed.

(** EndSwapMove computes the energy after exchanging the types of the atoms from end to end, and then moves the positions:
    the difference it uses is the change of pair and external energy, and of the total energy when the bonded potentials are
    the same from both ends. *)
Theorem end_swap_exact_partial :
  forall M cap B masked u cut kinds ext molOf beta n atoms s mol types r,
  (2 <= M)%nat -> a_boundary B -> interaction_ok cut u -> (forall i j, masked i j = masked j i) ->
  grid_of (bLens B) cut n -> NoDup atoms ->
  synced M cap (bGen B) (bLens B) cut n atoms s -> mol ⊆ atoms -> NoDup mol ->
  (forall i j, i ∈ mol -> j ∈ atoms -> molOf i = molOf j <-> j ∈ mol) ->
  map (sTy s) mol = types ->
  (forall i j, i ∈ atoms -> j ∈ atoms -> masked (mirror mol i) (mirror mol j) = masked i j) ->
  Forall (palindromic mol) kinds ->
  let pos' := fun b => sPos s (mirror mol b) in
  (forall k, (k <= length mol)%nat -> ~ crowded (bGen B) n (M - 1) atoms (midway mol k pos' (sPos s))) ->
  let E := total_energy (bDist B) masked u kinds ext atoms in
  let dE := E pos' (sTy s) - E (sPos s) (sTy s) in
  exists s' ok, end_swap M (bGen B) (bDist B) masked u ext molOf beta types s mol r = Ok (dE, s', ok) /\
    ok = metropolis (boltzmann beta dE) r /\
    if ok then (forall b, sPos s' b = pos' b) /\ (forall b, sTy s' b = sTy s b) /\ synced M cap (bGen B) (bLens B) cut n atoms s'
    else same_state s' s.
Proof.
  intros M cap B masked u cut kinds ext molOf beta n atoms s mol types r HM HB (Hc & Hcut & Hu) Hm HG Hnd Hs Hsub Hmn Hmol Hty Hmask Hk pos' Hcr E dE.
  pose proof (boundary_facts B HB) as F. pose proof (boundary_adj B cut n HB Hc HG) as Hadj.
  pose proof (end_swap_gen M cap HM (bGen B) (bDist B) (bWrap B) (bLens B) n masked u cut ext molOf beta atoms Hnd (bf_pos B F) Hc HG
    Hadj Hcut (bf_sym B F) Hu Hm s mol types r Hs Hsub Hmn Hmol Hty Hmask Hcr) as H. cbv zeta in H.
  replace dE with (pair_energy (bDist B) masked u atoms pos' (sTy s) + external_energy ext atoms pos' (sTy s) -
    (pair_energy (bDist B) masked u atoms (sPos s) (sTy s) + external_energy ext atoms (sPos s) (sTy s))); [exact H|].
  unfold dE, E, total_energy. rewrite (sum_ext (bonded_energy pos') (bonded_energy (sPos s))); [ring|].
  intros k Hin. rewrite Forall_forall in Hk. apply bonded_mirror. by apply Hk.
Qed.

(** HomopolymerSemiGrandMove: without an external potential the energy difference used is that of the total energy. *)
Theorem semigrand_exact_partial :
  forall M cap B masked u cut kinds molOf beta typeOf wt n atoms s mol st r,
  (2 <= M)%nat -> a_boundary B -> interaction_ok cut u -> (forall i j, masked i j = masked j i) ->
  grid_of (bLens B) cut n -> NoDup atoms ->
  synced M cap (bGen B) (bLens B) cut n atoms s -> mol ⊆ atoms -> NoDup mol ->
  (forall i j, i ∈ mol -> j ∈ atoms -> molOf i = molOf j <-> j ∈ mol) ->
  (forall a, a ∈ mol -> sTy s a = typeOf st) ->
  let new := if decide (st = 0%Z) then 1%Z else 0%Z in
  let ty' := fun b => if decide (b ∈ mol) then typeOf new else sTy s b in
  let E := total_energy (bDist B) masked u kinds None atoms in
  let dE := E (sPos s) ty' - E (sPos s) (sTy s) in
  exists s' st' ok, semigrand M (bGen B) (bDist B) masked u molOf beta typeOf wt s mol st r = Ok (dE, s', st', ok) /\
    ok = metropolis (boltzmann beta dE * wt new / wt st) r /\
    if ok then (forall b, sPos s' b = sPos s b) /\ (forall b, sTy s' b = ty' b) /\ sCells s' = sCells s /\ st' = new
    else same_state s' s /\ st' = st.
Proof.
  intros M cap B masked u cut kinds molOf beta typeOf wt n atoms s mol st r HM HB (Hc & Hcut & Hu) Hm HG Hnd Hs Hsub Hmn Hmol Hty new ty' E dE.
  pose proof (boundary_facts B HB) as F. pose proof (boundary_adj B cut n HB Hc HG) as Hadj.
  pose proof (semigrand_gen M cap HM (bGen B) (bDist B) (bWrap B) (bLens B) n masked u cut None molOf beta atoms Hnd (bf_pos B F) Hc HG
    Hadj Hcut (bf_sym B F) Hu Hm typeOf wt s mol st r Hs Hsub Hmn Hmol Hty) as H. cbv zeta in H. fold new ty' in H.
  replace dE with (pair_energy (bDist B) masked u atoms (sPos s) ty' - pair_energy (bDist B) masked u atoms (sPos s) (sTy s)); [exact H|].
  unfold dE, E, total_energy, external_energy. ring.
Qed.

(** ** Examples and counterexamples for C47 *)

(** Atoms 2 and 3 form a molecule, with types 2 and 3. *)
Definition ex_mol (a : nat) : nat := if decide (a ∈ [2; 3]%nat) then 1%nat else 0%nat.
Lemma nodup23 : NoDup [2; 3]%nat.
Proof. apply (bool_decide_eq_true_1 (NoDup _)). reflexivity. Qed.
Lemma sub23 : [2; 3]%nat ⊆ ex_atoms.
Proof. intros x. unfold ex_atoms. rewrite !elem_of_cons. tauto. Qed.
Lemma ex_mol_iff i j : i ∈ [2; 3]%nat -> j ∈ ex_atoms -> ex_mol i = ex_mol j <-> j ∈ [2; 3]%nat.
Proof.
  intros Hi Hj. unfold ex_mol. rewrite (decide_True (P := i ∈ _)) by done. case_decide; split; try done.
Qed.
Lemma ex_mirror a : mirror [2; 3]%nat a = if decide (a = 2)%nat then 3%nat else if decide (a = 3)%nat then 2%nat else a.
Proof.
  case_decide as H; [subst; done|]. case_decide as H'; [subst; done|]. apply mirror_out. rewrite !elem_of_cons, elem_of_nil. tauto.
Qed.
Example end_swap_example :
  exists s, synced 61 4 (cartToGen ex_box) (oLen ex_box) 1 (V3 10 10 10)%Z ex_atoms s /\
    map (sTy s) [2; 3]%nat = [2; 3]%Z /\ (forall i j, i ∈ [2; 3]%nat -> j ∈ ex_atoms -> ex_mol i = ex_mol j <-> j ∈ [2; 3]%nat) /\
    (forall i j, i ∈ ex_atoms -> j ∈ ex_atoms -> ex_mask2 (mirror [2; 3]%nat i) (mirror [2; 3]%nat j) = ex_mask2 i j) /\
    Forall (palindromic [2; 3]%nat) [ex_bonds] /\
    (forall pos, ~ crowded (cartToGen ex_box) (V3 10 10 10)%Z (61 - 1) ex_atoms pos) /\
    sPos s (mirror [2; 3]%nat 2%nat) = V3 5 5 6 /\ sPos s 2%nat = V3 5 5 5.
Proof.
  destruct (ex_built Z.of_nat) as (s & Hs & HP & HT). exists s. split; [done|]. split; [cbn; by rewrite !HT|].
  split; [apply ex_mol_iff|]. split.
  { intros i j _ _. rewrite !ex_mirror. unfold ex_mask2. apply bool_decide_ext. repeat case_decide; lia. }
  split. { constructor; [|constructor]. apply (chain_palindromic _ 2 0%Z); [apply nodup23|cbn; lia| |].
    - intros ps t. unfold ex_bonds, bond_kE. cbn [kE]. destruct ps as [|p [|q [|x ps]]]; try done.
      + cbn. apply (bf_sym _ (boundary_facts (ortho_bd ex_box) ltac:(left; exists ex_box; split; [apply ex_a_box|done]))).
      + destruct (rev (p :: q :: x :: ps)) as [|p' [|q' [|x' l]]] eqn:E; try done. apply (f_equal length) in E. rewrite rev_length in E. cbn in E. lia.
    - intros m _. left. done. }
  split. { intros pos. apply few_not_crowded. cbn. lia. }
  rewrite ex_mirror, decide_True by done. split; (rewrite HP; [done|unfold ex_atoms; rewrite !elem_of_cons; tauto]).
Qed.
Example semigrand_example :
  exists s, synced 61 4 (cartToGen ex_box) (oLen ex_box) 1 (V3 10 10 10)%Z ex_atoms s /\
    (forall a, a ∈ [2; 3]%nat -> sTy s a = 5%Z) /\ (forall i j, i ∈ [2; 3]%nat -> j ∈ ex_atoms -> ex_mol i = ex_mol j <-> j ∈ [2; 3]%nat).
Proof.
  destruct (ex_built (fun a => if decide (a ∈ [2; 3]%nat) then 5 else 7)%Z) as (s & Hs & HP & HT). exists s. split; [done|].
  split; [|apply ex_mol_iff]. intros a Ha. rewrite HT. by rewrite decide_True.
Qed.

Definition no_u (_ : R) (_ _ : Z) : R := 0.
Lemma no_ix : interaction_ok 1 no_u.
Proof. split; [lra|]. split; done. Qed.
Lemma no_pair dist2 masked atoms pos ty : pair_energy dist2 masked no_u atoms pos ty = 0.
Proof. unfold pair_energy. apply sum_0. intros i _. apply sum_0. intros j _. case_decide; [by destruct (masked i j)|done]. Qed.

(** HomopolymerSemiGrandMove leaves out the external energy: with an external potential that depends on the type, here the
    number of the type, the move of one molecule of two atoms from type 0 to type 1 changes the energy by 2, and the energy
    difference used is 0. *)
Theorem semigrand_external_refuted :
  exists s, synced 61 4 (cartToGen ex_box) (oLen ex_box) 1 (V3 10 10 10)%Z ex_atoms s /\ interaction_ok 1 no_u /\
    (forall i j, i ∈ [2; 3]%nat -> j ∈ ex_atoms -> ex_mol i = ex_mol j <-> j ∈ [2; 3]%nat) /\
    (forall a, sTy s a = 0%Z) /\
    let ty' := fun b => if decide (b ∈ [2; 3]%nat) then 1%Z else sTy s b in
    let E := total_energy (distanceSq ex_box) (fun _ _ => false) no_u [] (Some (fun _ t => IZR t)) ex_atoms in
    E (sPos s) ty' - E (sPos s) (sTy s) = 2 /\
    forall beta wt r, exists s' st' ok,
      semigrand 61 (cartToGen ex_box) (distanceSq ex_box) (fun _ _ => false) no_u ex_mol beta (fun t => t) wt s [2; 3]%nat 0 r
        = Ok (0, s', st', ok).
Proof.
  destruct (ex_built (fun _ => 0%Z)) as (s & Hs & HP & HT). exists s. split; [done|]. split; [apply no_ix|]. split; [apply ex_mol_iff|].
  split; [done|]. cbv zeta. split.
  - unfold total_energy, external_energy. rewrite !no_pair, !sum_nil. unfold ex_atoms. rewrite !sum_cons, !sum_nil, !HT.
    rewrite !(decide_False (P := _ ∈ _)) by (rewrite !elem_of_cons, elem_of_nil; lia).
    rewrite !(decide_True (P := _ ∈ _)) by (rewrite !elem_of_cons; tauto). lra.
  - intros beta wt r. assert (HB : a_boundary (ortho_bd ex_box)) by (left; exists ex_box; split; [apply ex_a_box|done]).
    destruct (semigrand_exact_partial 61 4 (ortho_bd ex_box) (fun _ _ => false) no_u 1 [] ex_mol beta (fun t => t) wt (V3 10 10 10)%Z
      ex_atoms s [2; 3]%nat 0%Z r) as (s' & st' & ok & H & _); [lia|done|apply no_ix|done|apply ex_grid10|apply ex_nodup|done|apply sub23|
      apply nodup23|apply ex_mol_iff|by intros; rewrite HT|]. exists s', st', ok. revert H. cbn [ortho_bd bGen bDist]. intros ->. do 4 f_equal.
    unfold total_energy, external_energy. rewrite !no_pair. ring.
Qed.

(** EndSwapMove leaves out links (and everything else bonded): with a link between an end of the chain and another
    molecule, of energy equal to the squared length, the energy changes and the energy difference used is 0. *)
Definition ex_link : gkind :=
  GK (bond_kE (distanceSq ex_box) (fun r _ => r)) [0%nat] (fun _ => [Grp [0; 2]%nat 0%Z]) (fun _ => 0%nat)
     (fun a => if decide (a = 0 \/ a = 2)%nat then [0%nat] else []).
Theorem end_swap_link_refuted :
  exists s, synced 61 4 (cartToGen ex_box) (oLen ex_box) 1 (V3 10 10 10)%Z ex_atoms s /\ interaction_ok 1 no_u /\
    (forall i j, i ∈ [2; 3]%nat -> j ∈ ex_atoms -> ex_mol i = ex_mol j <-> j ∈ [2; 3]%nat) /\
    let pos' := fun b => sPos s (mirror [2; 3]%nat b) in
    let E := total_energy (distanceSq ex_box) (fun _ _ => false) no_u [ex_link] None ex_atoms in
    E pos' (sTy s) - E (sPos s) (sTy s) <> 0 /\
    forall beta r, exists s' ok,
      end_swap 61 (cartToGen ex_box) (distanceSq ex_box) (fun _ _ => false) no_u None ex_mol beta (map (sTy s) [2; 3]%nat) s [2; 3]%nat r
        = Ok (0, s', ok).
Proof.
  destruct (ex_built (fun _ => 0%Z)) as (s & Hs & HP & HT). exists s. split; [done|]. split; [apply no_ix|]. split; [apply ex_mol_iff|].
  cbv zeta. split.
  - unfold total_energy, external_energy. rewrite !no_pair, !sum_cons, !sum_nil.
    unfold bonded_energy, ex_link. cbn [kMols kGrp]. rewrite !sum_cons, !sum_nil. cbn [gAt gTy kE map].
    change (mirror [2; 3]%nat 0%nat) with 0%nat. change (mirror [2; 3]%nat 2%nat) with 3%nat.
    rewrite !HP by (unfold ex_atoms; rewrite !elem_of_cons; tauto). unfold bond_kE.
    rewrite (ex_dist (ex_in 0%nat) (ex_in 3%nat) _ _ _ _ _ _ eq_refl eq_refl), (ex_dist (ex_in 0%nat) (ex_in 2%nat) _ _ _ _ _ _ eq_refl eq_refl).
    rewrite !sep_in by (apply Rabs_le; lra). cbn [fst]. lra.
  - intros beta r. assert (HB : a_boundary (ortho_bd ex_box)) by (left; exists ex_box; split; [apply ex_a_box|done]).
    destruct (end_swap_exact_partial 61 4 (ortho_bd ex_box) (fun _ _ => false) no_u 1 [] None ex_mol beta (V3 10 10 10)%Z
      ex_atoms s [2; 3]%nat (map (sTy s) [2; 3]%nat) r) as (s' & ok & H & _); [lia|done|apply no_ix|done|apply ex_grid10|apply ex_nodup|done|apply sub23|
      apply nodup23|apply ex_mol_iff|done|done|constructor|intros; apply few_not_crowded; cbn; lia|]. exists s', ok. revert H. cbn [ortho_bd bGen bDist]. intros ->. do 3 f_equal.
    unfold total_energy, external_energy. rewrite !no_pair, !sum_nil. ring.
Qed.

(** ** C49 *)

Lemma rigid_steps M toGen dist2 wrap masked u ext d mol : forall s e s1 e1,
  foldM (rigid_step M toGen dist2 wrap masked u ext d) (s, e) mol = Ok (s1, e1) ->
  (forall b, b ∉ mol -> sPos s1 b = sPos s b) /\ sTy s1 = sTy s /\ sCells s1 = sCells s.
Proof.
  induction mol as [|x mol IH]; intros s e s1 e1 H; cbn [foldM] in H; [by injection H as <- _|].
  apply obind_Ok in H as ([t et] & Ht & H). unfold rigid_step in Ht. apply obind_Ok in Ht as (ea & _ & Ht). injection Ht as <- _.
  destruct (IH _ _ _ _ H) as (H1 & H2 & H3). cbn [sTy sCells] in *. split; [|done]. intros b [Hb Hb']%not_elem_of_cons.
  rewrite H1 by done. cbn [sPos]. by apply move_ne.
Qed.

(** C49: whatever the configuration and the random numbers, whenever one of the four moves reports rejection, all atoms have
    the positions, types and cells, and the molecule the state, that they had before.  The atoms of a molecule are distinct;
    EndSwapMove needs the atoms to have the types its species gives them, and HomopolymerSemiGrandMove those of the current
    state.  CfbEndMove and the other moves are not in the model. *)
Theorem rejected_moves_restore_partial :
  forall M toGen dist2 wrap masked u kinds ext molOf beta s r dE s',
  (forall a d, atom_displace M toGen dist2 wrap masked u kinds ext beta s a d r = Ok (dE, s', false) -> same_state s' s) /\
  (forall mol d, NoDup mol -> rigid_displace M toGen dist2 wrap masked u ext beta s mol d r = Ok (dE, s', false) -> same_state s' s) /\
  (forall mol types, NoDup mol -> map (sTy s) mol = types ->
    end_swap M toGen dist2 masked u ext molOf beta types s mol r = Ok (dE, s', false) -> same_state s' s) /\
  (forall typeOf wt mol st st', NoDup mol -> (forall a, a ∈ mol -> sTy s a = typeOf st) ->
    semigrand M toGen dist2 masked u molOf beta typeOf wt s mol st r = Ok (dE, s', st', false) -> same_state s' s /\ st' = st).
Proof.
  intros M toGen dist2 wrap masked u kinds ext molOf beta s r dE s'. split_and!.
  - intros a d H. unfold atom_displace in H. apply obind_Ok in H as (e0 & _ & H). apply obind_Ok in H as (e1 & _ & H).
    destruct (metropolis _ _); [apply obind_Ok in H as (s2 & _ & H); done|]. injection H as _ <-. split; [|done].
    intros b. cbn [sPos]. unfold move. by repeat case_decide; subst.
  - intros mol d Hnd H. unfold rigid_displace in H. apply obind_Ok in H as (e0 & _ & H). apply obind_Ok in H as ([s1 e1] & Hs & H).
    destruct (rigid_steps _ _ _ _ _ _ _ _ _ _ _ _ _ Hs) as (H1 & H2 & H3).
    destruct (metropolis _ _); [apply obind_Ok in H as (s2 & _ & H); done|]. injection H as _ <-. split; [|cbn; by rewrite H2, H3].
    intros b. cbn [sPos]. rewrite restore_all by done. case_decide; [done|auto].
  - intros mol types Hnd <- H. unfold end_swap in H. apply obind_Ok in H as (e0 & _ & H). apply obind_Ok in H as (e1 & _ & H).
    destruct (metropolis _ _); [apply obind_Ok in H as (s2 & _ & H); done|]. injection H as _ <-. split; [done|]. split; [|done].
    intros b. cbn [sTy]. destruct (decide (b ∈ mol)) as [Hb|Hb]; [|by rewrite !retype_out].
    apply elem_of_list_lookup in Hb as [i Hi]. apply (retype_in _ _ _ i); [done|done|]. rewrite list_lookup_fmap, Hi. done.
  - intros typeOf wt mol st st' Hnd Hty H. unfold semigrand in H. apply obind_Ok in H as (e0 & _ & H). apply obind_Ok in H as (e1 & _ & H).
    destruct (metropolis _ _); [done|]. injection H as _ <- <-. split; [|done]. split; [done|]. split; [|done].
    intros b. cbn [sTy]. rewrite !retype_const by done. case_decide; [by rewrite Hty|done].
Qed.

(** Two interacting atoms: the rejected move of [rigid_displace_refuted] is an instance. *)
Example rejected_example : exists s mol d s', NoDup mol /\
  rigid_displace 61 (cartToGen ex_box) (distanceSq ex_box) (shift1 ex_box) (fun _ _ => false) rx_u None 1 s mol d (1/2) = Ok (1, s', false).
Proof.
  destruct rigid_displace_refuted as (s & mol & d & s' & _ & _ & -> & H). exists s, [0; 1]%nat, d, s'. split; [apply rx_nodup|]. apply H.
Qed.

Print Assumptions atom_displace_exact.
Print Assumptions rigid_displace_nonbonded_partial.
Print Assumptions rigid_displace_exact_partial.
Print Assumptions rigid_displace_refuted.
Print Assumptions end_swap_exact_partial.
Print Assumptions end_swap_link_refuted.
Print Assumptions semigrand_exact_partial.
Print Assumptions semigrand_external_refuted.
Print Assumptions rejected_moves_restore_partial.
