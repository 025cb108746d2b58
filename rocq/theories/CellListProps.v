(** Properties C09 and C10. *)
From stdpp Require Import gmap.
From Verif Require Import Base Vec3 BoxSpec OrthoModel OrthoSpec OrthoProofs OrthoProps MonoModel MonoSpec MonoProofs MonoProps.
From Verif Require Import McCellModel McCellSpec McCellProofs McCellProps DomainModel DomainProofs SpeciesModel SpeciesProofs.
From Verif Require Import CellListModel CellListSpec CellListProofs.
From Coq Require Import Reals Lra.
Local Open Scope R_scope.

(** C09.  setup makes, along each axis, the largest number of cells not narrower than the cutoff (at least one).
    Cell indices 0 .. totCells()-1 and cell coordinates in range are in bijection.  A position of the primary cell gets
    an index in range; the cell with that index contains the position and no other cell does.  A cutoff that is not
    positive is rejected. *)
Theorem cell_index_correct :
  forall M toGen lens cutoff l0, positive3 lens ->
  (cutoff <= 0 -> cl_setup M lens cutoff l0 = Throw) /\
  (0 < cutoff -> exists l n, cl_setup M lens cutoff l0 = Ok l /\ grid_of lens cutoff n /\ clNum l = n /\
     clTot l = (vx n * vy n * vz n)%Z /\
     (forall c, (forall i, (i < 3)%nat -> (0 <= vget c i < vget n i)%Z) ->
        (0 <= cl_coord_index l c < clTot l)%Z /\ cl_index_coord l (cl_coord_index l c) = c) /\
     (forall i, (0 <= i < clTot l)%Z ->
        (forall k, (k < 3)%nat -> (0 <= vget (cl_index_coord l i) k < vget n k)%Z) /\
        cl_coord_index l (cl_index_coord l i) = i) /\
     (forall p, primary (toGen p) ->
        (0 <= cl_index toGen l p < clTot l)%Z /\ in_cell n (cl_index_coord l (cl_index toGen l p)) (toGen p) /\
        (forall i, (0 <= i < clTot l)%Z -> in_cell n (cl_index_coord l i) (toGen p) -> i = cl_index toGen l p))).
Proof.
  intros M toGen lens cutoff l0 HL. split.
  { intros H. unfold cl_setup. by destruct (Rle_dec cutoff 0). }
  intros Hc. set (n := vmap (fun x => axis_num x cutoff) lens).
  assert (exists l, cl_setup M lens cutoff l0 = Ok l /\ gwf l n /\ grid_of lens cutoff n) as (l & Hl & W & HG).
  { destruct (gwf_setup (M + 2) (length (clTags l0)) ltac:(lia) toGen n lens cutoff l0 Hc HL eq_refl eq_refl) as (l & Hl & I & HG).
    revert Hl. pose proof (ci_wf _ _ _ _ _ _ I) as W. unfold cl_setup. destruct (Rle_dec cutoff 0); [lra|].
    fold n. destruct (check _) as [[]| |]; cbn [obind]; [|done..]. intros [= El]. eexists. split; [done|]. split; [|done].
    subst l. destruct W. split; try done. clear - g_cap. revert g_cap. cbn. rewrite !replicate_length.
    destruct (decide _); rewrite ?replicate_length; lia. }
  exists l, n. split; [done|]. split; [done|]. split; [by apply W|]. split; [rewrite (g_tot _ _ W); ring|].
  assert (forall c, in_grid n c -> (0 <= cl_coord_index l c < clTot l)%Z /\ cl_index_coord l (cl_coord_index l c) = c) as HC.
  { intros c Hg. rewrite (g_coord_index _ _ W). split; [rewrite (g_tot _ _ W); by apply cidx_range|by apply (g_index_coord _ _ W)]. }
  split; [exact HC|]. split.
  - intros i Hi. destruct (g_index_ex _ _ W i Hi) as (c & Hg & ->).
    rewrite (g_index_coord _ _ W) by done. split; [exact Hg|]. by rewrite (g_coord_index _ _ W).
  - intros p Hp. destruct (g_index _ _ W toGen p Hp) as [-> Hg]. split; [rewrite (g_tot _ _ W); by apply cidx_range|].
    rewrite (g_index_coord _ _ W) by done. split.
    + intros i Hi. apply in_cell_axis; [by apply W|by apply Hp|]. destruct i as [|[|[|]]]; try lia; done.
    + intros i Hi. destruct (g_index_ex _ _ W i Hi) as (c & Hgc & ->). rewrite (g_index_coord _ _ W) by done.
      intros Hin. f_equal. destruct c as [x y z]. unfold ccell.
      pose proof (Hin 0%nat ltac:(lia)) as H0. pose proof (Hin 1%nat ltac:(lia)) as H1. pose proof (Hin 2%nat ltac:(lia)) as H2.
      apply in_cell_axis in H0; [|apply (g_pos _ _ W 0%nat); lia|apply (Hp 0%nat); lia].
      apply in_cell_axis in H1; [|apply (g_pos _ _ W 1%nat); lia|apply (Hp 1%nat); lia].
      apply in_cell_axis in H2; [|apply (g_pos _ _ W 2%nat); lia|apply (Hp 2%nat); lia].
      cbn [vget vx vy vz] in *. congruence.
Qed.

(** Positions for which distances and generalized coordinates agree: the shape of the box. *)
Definition spans (toGen : vec3 R -> vec3 R) (brav : vec3 (vec3 R)) (lens : vec3 R) : Prop :=
  forall r1 r2 m i, (i < 3)%nat ->
    Rsqr (Rabs (vget (toGen r1) i - vget (toGen r2) i + IZR (vget m i)) * vget lens i)
    <= normSq (vadd (vsub r1 r2) (lattice_vector brav m)).

Lemma Rsqr_Rabs_mult x y : Rsqr (Rabs x * y) = x * x * (y * y).
Proof. rewrite Rsqr_mult, <- Rsqr_abs. unfold Rsqr. ring. Qed.

Lemma ortho_spans b : a_box b -> spans (cartToGen b) (oBrav b) (oLen b).
Proof.
  intros Hb. destruct (owf_a_box b Hb) as (l & lat & W). intros r1 r2 m i Hi.
  rewrite Rsqr_Rabs_mult. unfold cartToGen. rewrite (w_inv _ _ _ W), (w_len _ _ _ W), (w_brav _ _ _ W).
  destruct (w_pos _ _ _ W) as (Lx & Ly & Lz).
  assert (forall L x y k, 0 < L -> (x * / L - y * / L + k) * (x * / L - y * / L + k) * (L * L) = (x - y + k * L) * (x - y + k * L)) as E.
  { intros. field. lra. }
  unfold normSq, vdot. unfold lattice_vector, combo, diag. cbn [vadd vsub vscale vx vy vz vmap vget].
  set (A := vx r1 - vx r2 + IZR (vx m) * vx l). set (B := vy r1 - vy r2 + IZR (vy m) * vy l).
  set (C := vz r1 - vz r2 + IZR (vz m) * vz l).
  match goal with |- _ <= ?X * ?X + ?Y * ?Y + ?Z * ?Z => replace X with A by (unfold A; ring); replace Y with B by (unfold B; ring);
    replace Z with C by (unfold C; ring) end.
  destruct i as [|[|[|]]]; try lia; cbn [vget vx vy vz]; rewrite E by done; [fold A|fold B|fold C]; nra.
Qed.

Lemma mono_spans b : a_mbox b -> spans (mono_cartToGen b) (mBrav b) (mLengths b).
Proof.
  intros Hb. destruct (mwf_a_mbox b Hb) as (l & d & W). intros r1 r2 m i Hi.
  rewrite Rsqr_Rabs_mult. unfold mono_cartToGen. rewrite (m_inv _ _ _ W), (m_lens _ _ _ W), (m_brav _ _ _ W), (m_c3 _ _ _ W).
  destruct (m_pos _ _ _ W) as (Lx & Ly & Lz).
  unfold normSq, vdot. unfold lattice_vector, combo. cbn [vadd vsub vscale vx vy vz vmap vget].
  set (A := vx r1 - vx r2 + IZR (vx m) * vx l). set (B := vy r1 - vy r2 + IZR (vy m) * vy l).
  set (C := vz r1 - vz r2 + IZR (vy m) * d + IZR (vz m) * vz l).
  match goal with |- _ <= ?X * ?X + ?Y * ?Y + ?Z * ?Z => replace X with A by (unfold A; ring); replace Y with B by (unfold B; ring);
    replace Z with C by (unfold C; ring) end.
  assert (forall L x y k, 0 < L -> (x * / L - y * / L + k) * (x * / L - y * / L + k) * (L * L) = (x - y + k * L) * (x - y + k * L)) as E.
  { intros. field. lra. }
  destruct i as [|[|[|]]]; try lia; cbn [vget vx vy vz]; [rewrite E by done; fold A; nra|rewrite E by done; fold B; nra|].
  set (c := - d / vy l). assert (0 < 1 + c * c) as Hs by nra.
  replace (vz l / sqrt (1 + c * c) * (vz l / sqrt (1 + c * c))) with (vz l * vz l * / (1 + c * c)).
  2:{ rewrite <- (sqrt_sqrt (1 + c * c)) at 1 by lra. field. pose proof (sqrt_lt_R0 _ Hs). lra. }
  set (D := C + c * B).
  assert (((vz r1 + c * vy r1) * / vz l - (vz r2 + c * vy r2) * / vz l + IZR (vz m)) * vz l = D) as ED.
  { unfold D, C, B, c. field. lra. }
  match goal with |- ?X * ?X * _ <= _ => replace (X * X * (vz l * vz l * / (1 + c * c))) with ((X * vz l) * (X * vz l) * / (1 + c * c)) by ring end.
  rewrite ED. apply (Rmult_le_reg_r (1 + c * c)); [done|]. rewrite Rmult_assoc, Rinv_l by lra. unfold D.
  pose proof (Rle_0_sqr (c * C - B)) as Q. unfold Rsqr in Q. nra.
Qed.

(** Full behaviour, for any boundary of this shape. *)
Lemma cell_list_general M cap toGen lens brav cutoff n l0 ops :
  (2 <= M)%nat -> positive3 lens -> spans toGen brav lens -> 0 < cutoff -> length (clTags l0) = cap ->
  grid_of lens cutoff n -> cl_proper toGen n (M - 2) cap ∅ ops ->
  exists l1 l, cl_setup M lens cutoff l0 = Ok l1 /\ run (cl_step M toGen) l1 ops = Ok l /\
    clinv M cap toGen n l (holds ops) /\
    forall p, primary (toGen p) -> exists nb, get_neighbors M toGen l p = Ok nb /\ NoDup nb /\
      (forall a, a ∈ nb <-> exists q, holds ops !! a = Some q /\
         exists c1 c2, in_cell n c1 (toGen p) /\ in_cell n c2 (toGen q) /\ adjacent n c1 c2) /\
      (forall a q m, holds ops !! a = Some q ->
         normSq (vadd (vsub p q) (lattice_vector brav m)) < cutoff * cutoff -> a ∈ nb).
Proof.
  intros HM HL Hsp Hc Hcap HG Hop.
  assert (n = vmap (fun x => axis_num x cutoff) lens) as En.
  { assert (forall i, (i < 3)%nat -> vget n i = axis_num (vget lens i) cutoff) as E.
    { intros i Hi. destruct (HG i Hi) as (A1 & A2 & A3).
      assert (0 < vget lens i) as HLi by (destruct HL as (? & ? & ?); destruct i as [|[|[|]]]; try lia; done).
      destruct (axis_num_count _ _ Hc HLi) as (B1 & B2 & B3). set (m := axis_num (vget lens i) cutoff) in *.
      assert (~ (vget n i < m)%Z).
      { intros Hlt. destruct B3 as [B3|B3]; [lia|]. assert (IZR (vget n i + 1) <= IZR m) by (apply IZR_le; lia). nra. }
      assert (~ (m < vget n i)%Z).
      { intros Hlt. destruct A3 as [A3|A3]; [lia|]. assert (IZR (m + 1) <= IZR (vget n i)) by (apply IZR_le; lia). nra. }
      lia. }
    apply vec3_ext. intros i Hi. rewrite E by done. destruct i as [|[|[|]]]; try lia; done. }
  destruct (gwf_setup M cap HM toGen n lens cutoff l0 Hc HL Hcap En) as (l1 & Hl1 & I1 & _).
  destruct (clinv_run M cap HM toGen n ops l1 ∅ I1 Hop) as (l & Hrun & I).
  exists l1, l. split; [done|]. split; [done|]. split; [done|].
  intros p Hp. destruct (neighbors_spec M cap HM toGen n l (holds ops) p I Hp) as (nb & nIn & _ & Hnb & Hnd & Hel & _).
  pose proof (ci_wf _ _ _ _ _ _ I) as W.
  assert (Hin : forall g c, primary g -> in_cell n c g <-> c = ccell n g).
  { intros g c Hg. unfold in_cell. split.
    - intros H. destruct c as [x y z]. unfold ccell. f_equal; symmetry.
      + apply (in_cell_axis _ x _ (g_pos _ _ W 0%nat ltac:(lia))); [apply (Hg 0%nat ltac:(lia))|apply (H 0%nat ltac:(lia))].
      + apply (in_cell_axis _ y _ (g_pos _ _ W 1%nat ltac:(lia))); [apply (Hg 1%nat ltac:(lia))|apply (H 1%nat ltac:(lia))].
      + apply (in_cell_axis _ z _ (g_pos _ _ W 2%nat ltac:(lia))); [apply (Hg 2%nat ltac:(lia))|apply (H 2%nat ltac:(lia))].
    - intros -> i Hi. apply in_cell_axis; [by apply W|by apply Hg|]. destruct i as [|[|[|]]]; try lia; done. }
  exists nb. split; [done|]. split; [done|]. split.
  - intros a. rewrite Hel. split; intros (q & Hq & H); exists q; (split; [done|]);
      pose proof (proj1 (ci_prim _ _ _ _ _ _ I _ _ Hq)) as Hpq.
    + exists (ccell n (toGen p)), (ccell n (toGen q)). split; [by apply Hin|]. split; [by apply Hin|done].
    + destruct H as (c1 & c2 & H1 & H2 & H3). apply Hin in H1, H2; [|done..]. by subst.
  - intros a q m Hq Hd. apply Hel. exists q. split; [done|].
    pose proof (proj1 (ci_prim _ _ _ _ _ _ I _ _ Hq)) as Hpq.
    apply (near_adjacent M HM toGen n lens cutoff); [done..|]. exists m. intros i Hi.
    pose proof (Hsp p q m i Hi) as Hs.
    apply Rsqr_incrst_0; [unfold Rsqr at 2; lra| |lra]. apply Rmult_le_pos; [apply Rabs_pos|].
    destruct HL as (? & ? & ?). destruct i as [|[|[|]]]; try lia; cbn; lra.
Qed.

(** C10, what is true.  For a box of any shape (OrthorhombicBoundary), any cutoff, any capacity, and any history of
    addAtom, deleteAtom, updateAtomCell and clear that respects the preconditions and never puts more than
    MaxAtomCell - 1 atoms into one cell: no call throws or goes out of range; nAtom() is the number of atoms held;
    getNeighbors returns exactly the atoms held in cells that touch the cell of the position, each once, and so every
    atom with any periodic image closer than the cutoff, in particular every atom whose minimum-image distance is
    smaller.  Missing: histories that put MaxAtomCell atoms into one cell, for which the property is false (below). *)
Theorem cell_list_finds_neighbors_partial :
  forall M cap b cutoff n l0 ops, (2 <= M)%nat -> a_box b -> 0 < cutoff -> length (clTags l0) = cap ->
  grid_of (oLen b) cutoff n -> cl_proper (cartToGen b) n (M - 2) cap ∅ ops ->
  exists l1 l, cl_setup M (oLen b) cutoff l0 = Ok l1 /\ run (cl_step M (cartToGen b)) l1 ops = Ok l /\
    cl_nAtom l = Ok (Z.of_nat (size (holds ops))) /\
    forall p, primary (cartToGen b p) -> exists nb, get_neighbors M (cartToGen b) l p = Ok nb /\ NoDup nb /\
      (forall a, a ∈ nb <-> exists q, holds ops !! a = Some q /\
         exists c1 c2, in_cell n c1 (cartToGen b p) /\ in_cell n c2 (cartToGen b q) /\ adjacent n c1 c2) /\
      (forall a q m, holds ops !! a = Some q ->
         normSq (vadd (vsub p q) (lattice_vector (oBrav b) m)) < cutoff * cutoff -> a ∈ nb) /\
      (forall a q, holds ops !! a = Some q -> distanceSq b p q < cutoff * cutoff -> a ∈ nb).
Proof.
  intros M cap b cutoff n l0 ops HM Hb Hc Hcap HG Hop.
  destruct (owf_a_box b Hb) as (len & lat & W).
  assert (positive3 (oLen b)) as HL by (rewrite (w_len _ _ _ W); apply W).
  destruct (cell_list_general M cap (cartToGen b) (oLen b) (oBrav b) cutoff n l0 ops HM HL (ortho_spans b Hb) Hc Hcap HG Hop)
    as (l1 & l & H1 & H2 & I & H4). exists l1, l. split; [done|]. split; [done|].
  split; [by apply (nAtom_spec M cap HM (cartToGen b) n)|].
  intros p Hp. destruct (H4 p Hp) as (nb & N1 & N2 & N3 & N4). exists nb. do 4 (split; [done|]).
  intros a q Hq Hd. pose proof (ortho_distanceSq_min_image b p q Hb) as HMI.
  destruct (distanceSq_shift b p q) as [d t] eqn:Ed. destruct (distanceSq_dr b p q) as [d' dr].
  destruct HMI as (E1 & _ & E3 & E4 & _).
  - intros i Hi. pose proof (proj1 (ci_prim _ _ _ _ _ _ I _ _ Hq)) as Hpq.
    pose proof (proj2 (proj2 (proj2 (ortho_transforms_inverse b Hb)))) as Hbox.
    destruct Hbox as [_ Hbox]. pose proof (proj2 (Hbox p) Hp i Hi). pose proof (proj2 (Hbox q) Hpq i Hi).
    unfold Rabs. destruct (Rcase_abs _); lra.
  - apply (N4 a q t Hq). rewrite <- E3, <- E4, E1. done.
Qed.

(** C10 for MonoclinicBoundary, whose lengths() are the distances between opposite faces.  mono_distanceSq is the squared
    distance to some image, so the last clause follows although it need not be the nearest one. *)
Theorem cell_list_finds_neighbors_mono_partial :
  forall M cap b cutoff n l0 ops, (2 <= M)%nat -> a_mbox b -> 0 < cutoff -> length (clTags l0) = cap ->
  grid_of (mLengths b) cutoff n -> cl_proper (mono_cartToGen b) n (M - 2) cap ∅ ops ->
  exists l1 l, cl_setup M (mLengths b) cutoff l0 = Ok l1 /\ run (cl_step M (mono_cartToGen b)) l1 ops = Ok l /\
    cl_nAtom l = Ok (Z.of_nat (size (holds ops))) /\
    forall p, primary (mono_cartToGen b p) -> exists nb, get_neighbors M (mono_cartToGen b) l p = Ok nb /\ NoDup nb /\
      (forall a, a ∈ nb <-> exists q, holds ops !! a = Some q /\
         exists c1 c2, in_cell n c1 (mono_cartToGen b p) /\ in_cell n c2 (mono_cartToGen b q) /\ adjacent n c1 c2) /\
      (forall a q m, holds ops !! a = Some q ->
         normSq (vadd (vsub p q) (lattice_vector (mBrav b) m)) < cutoff * cutoff -> a ∈ nb) /\
      (forall a q, holds ops !! a = Some q -> mono_distanceSq b p q < cutoff * cutoff -> a ∈ nb).
Proof.
  intros M cap b cutoff n l0 ops HM Hb Hc Hcap HG Hop.
  destruct (mwf_a_mbox b Hb) as (len & d & W).
  assert (positive3 (mLengths b)) as HL.
  { rewrite (m_lens _ _ _ W). destruct (m_pos _ _ _ W) as (A & B & C). split; [done|]. split; [done|]. cbn.
    apply Rdiv_lt_0_compat; [done|]. apply sqrt_lt_R0. nra. }
  destruct (cell_list_general M cap (mono_cartToGen b) (mLengths b) (mBrav b) cutoff n l0 ops HM HL (mono_spans b Hb) Hc Hcap HG Hop)
    as (l1 & l & H1 & H2 & I & H4). exists l1, l. split; [done|]. split; [done|].
  split; [by apply (nAtom_spec M cap HM (mono_cartToGen b) n)|].
  intros p Hp. destruct (H4 p Hp) as (nb & N1 & N2 & N3 & N4). exists nb. do 4 (split; [done|]).
  intros a q Hq Hd. pose proof (mono_distanceSq_image_partial b p q Hb) as HMI.
  destruct (mono_distanceSq_shift b p q) as [d2 t] eqn:Ed. destruct (mono_distanceSq_dr b p q) as [d' dr].
  destruct HMI as (E1 & _ & E3 & E4 & _).
  - intros i Hi. pose proof (proj1 (ci_prim _ _ _ _ _ _ I _ _ Hq) i Hi). pose proof (Hp i Hi).
    unfold Rabs. destruct (Rcase_abs _); lra.
  - apply (N4 a q t Hq). rewrite <- E3, <- E4, E1. done.
Qed.

(** A 4 x 4 x 2 box with cutoff 1: 4 x 4 x 2 cells.  Atoms 0 and 1 sit in opposite corners, 1/5 apart through the faces;
    atom 2 is added, moved and deleted. *)
Example cell_list_example :
  let b := box [SetOrtho (V3 4 4 2)] in
  let ops := [CAdd 0 (V3 0 0 0); CAdd 2 (V3 2 2 1); CAdd 1 (V3 (39/10) (39/10) (19/10)); CUpd 2 (V3 1 1 1); CDel 2] in
  a_box b /\ grid_of (oLen b) 1 (V3 4 4 2)%Z /\ cl_proper (cartToGen b) (V3 4 4 2)%Z (61 - 2) 5 ∅ ops /\
  primary (cartToGen b (V3 0 0 0)) /\
  holds ops !! 1%nat = Some (V3 (39/10) (39/10) (19/10)) /\
  distanceSq b (V3 0 0 0) (V3 (39/10) (39/10) (19/10)) < 1 * 1.
Proof.
  intros b ops.
  assert (HF : Forall box_op_ok [SetOrtho (V3 4 4 2)]) by (repeat constructor; unfold positive3; simpl; lra).
  pose proof (owf_box _ HF) as W. fold b in W. change (edges [SetOrtho (V3 4 4 2)]) with (V3 4 4 2) in W.
  assert (HP : forall x y z, 0 <= x < 4 -> 0 <= y < 4 -> 0 <= z < 2 -> primary (cartToGen b (V3 x y z))).
  { intros x y z Hx Hy Hz i Hi. unfold cartToGen. rewrite (w_inv _ _ _ W).
    destruct i as [|[|[|]]]; try lia; cbn [vget vx vy vz]; lra. }
  assert (HR : forall h g, (size h <= 59)%nat -> room (cartToGen b) (V3 4 4 2)%Z (61 - 2) h g).
  { intros h g Hs l Hnd Hl. etrans; [|apply Hs]. rewrite <- (size_dom h).
    assert (list_to_set l ⊆ dom h).
    { intros a Ha%elem_of_list_to_set. destruct (Hl a Ha) as (q & Hq & _). apply elem_of_dom. by eexists. }
    rewrite <- (size_list_to_set (C:=gset nat) l Hnd). by apply subseteq_size. }
  split; [by eexists; split|]. split.
  { rewrite (w_len _ _ _ W). intros [|[|[|]]] Hi; try lia; cbn [vget vx vy vz]; (split; [lia|]; split; [rewrite plus_IZR; lra|right; lra]). }
  split.
  { cbn [cl_proper ops at_step].
    repeat split; try lia; try (apply HP; lra); try (apply HR; vm_compute; lia); try done; try (by eexists).
    all: apply HP; [lra..|done]. }
  split; [apply HP; lra|]. split; [done|].
  unfold distanceSq. rewrite !(sep_eq b _ _ _ _ _ W) by lia. cbn [vget vx vy vz].
  assert (HS : forall L x, 0 < x < L -> L / 2 < x -> sep_axis (L / 2) L 0 x = (0 - x + L, 1%Z)).
  { intros L x Hx Hh. unfold sep_axis. rewrite Rabs_left by lra. destruct (Rgt_dec (- (0 - x)) (L / 2)); [|lra].
    destruct (Rgt_dec (0 - x) 0); [lra|done]. }
  rewrite !HS by lra. cbn [fst]. lra.
Qed.

(** C10 in full is false, because a cell can lose an atom once it has held MaxAtomCell atoms ([mc_cell_overfill_refuted]):
    in a unit box with cutoff 1 (a single cell), add atoms 0..60, delete 0, add 61 and 62, all at the origin.  No call
    throws, atom 61 is in the list at distance 0, and getNeighbors does not return it. *)
Definition one_op (o : cell_op) : clop :=
  match o with AddAtom a => CAdd a (V3 0 0 0) | DelAtom a => CDel a end.

Section OneCell.
  Context (toGen : vec3 R -> vec3 R) (M cap : nat).
  Definition sim (t : tagged) (l : clist) : Prop :=
    gwf l (V3 1 1 1)%Z /\ clCells l = [tcell t] /\ length (clTags l) = cap /\
    forall a, (a < cap)%nat -> clTags l !! a = Some ((fun p => (0%nat, p)) <$> tags t !! a).
  Lemma sim_step t o t' l : primary (toGen (V3 0 0 0)) -> sim t l ->
    (match o with AddAtom a => a | DelAtom a => a end < cap)%nat -> cell_step M t o = Ok t' ->
    exists l', cl_step M toGen l (one_op o) = Ok l' /\ sim t' l'.
  Proof.
    intros Hp (W & Hc & Hlen & Ht) Hlt Hst.
    assert (cl_index toGen l (V3 0 0 0) = 0%Z) as E0.
    { destruct (g_index _ _ W toGen _ Hp) as [-> Hg]. apply cidx_range in Hg. cbn in Hg. lia. }
    destruct o as [a|a]; cbn [cell_step one_op cl_step] in *.
    - destruct (cell_add M (tcell t) a) as [[c p]| |] eqn:Ea; cbn [obind] in Hst; [|done..]. injection Hst as <-.
      unfold cl_add, cl_cell_add. rewrite E0, Hc. cbn [zget]. unfold zget. rewrite decide_True by lia.
      change (aget [tcell t] (Z.to_nat 0)) with (Ok (tcell t)). cbn [obind]. unfold aget. rewrite Ht by done. cbn [obind].
      rewrite Ea. cbn [obind]. unfold zset. rewrite decide_True by lia. unfold aset at 1. rewrite decide_True by (cbn; lia). cbn [obind].
      unfold aset. rewrite decide_True by lia. cbn [obind]. eexists. split; [done|]. split; [|split; [done|split]].
      + apply gwf_put; [done|]. by rewrite Hc.
      + cbn. by rewrite insert_length.
      + intros b Hb. cbn [cl_put clTags tags]. destruct (decide (b = a)) as [->|Hne].
        * rewrite list_lookup_insert by lia. by rewrite lookup_insert.
        * rewrite list_lookup_insert_ne, lookup_insert_ne by done. by apply Ht.
    - destruct (tags t !! a) as [p|] eqn:Et; [|done].
      destruct (cell_delete (tcell t) p) as [c| |] eqn:Ed; cbn [obind] in Hst; [|done..]. injection Hst as <-.
      unfold cl_delete, cl_cell_delete. unfold aget at 1. rewrite Ht, Et by done. cbn [obind fmap option_fmap option_map].
      rewrite Hc. change (aget [tcell t] 0) with (Ok (tcell t)). cbn [obind]. rewrite Ed. cbn [obind].
      unfold aset at 1. rewrite decide_True by (cbn; lia). cbn [obind].
      unfold aset. rewrite decide_True by lia. cbn [obind]. eexists. split; [done|]. split; [|split; [done|split]].
      + apply gwf_put; [done|]. by rewrite Hc.
      + cbn. by rewrite insert_length.
      + intros b Hb. cbn [cl_put clTags tags]. destruct (decide (b = a)) as [->|Hne].
        * rewrite list_lookup_insert by lia. by rewrite lookup_delete.
        * rewrite list_lookup_insert_ne, lookup_delete_ne by done. by apply Ht.
  Qed.
  Lemma sim_run ops : forall t t' l, primary (toGen (V3 0 0 0)) -> sim t l ->
    Forall (fun o => match o with AddAtom a => a | DelAtom a => a end < cap)%nat ops -> run (cell_step M) t ops = Ok t' ->
    exists l', run (cl_step M toGen) l (map one_op ops) = Ok l' /\ sim t' l'.
  Proof.
    induction ops as [|o ops IH]; intros t t' l Hp HS HF Hr; cbn [run map] in *.
    - injection Hr as <-. by exists l.
    - destruct (cell_step M t o) as [t1| |] eqn:E; cbn [obind] in Hr; [|done..]. inversion_clear HF.
      destruct (sim_step t o t1 l Hp HS ltac:(done) E) as (l1 & -> & HS1). cbn [obind]. by apply (IH t1 t').
  Qed.
End OneCell.

Theorem cell_list_overfull_refuted :
  let b := box [SetOrtho (V3 1 1 1)] in
  let ops := map one_op overfill in
  exists l1 l nb, cl_setup 61 (oLen b) 1 (cl_new 63) = Ok l1 /\ run (cl_step 61 (cartToGen b)) l1 ops = Ok l /\
    cl_proper (cartToGen b) (V3 1 1 1)%Z 61 63 ∅ ops /\
    holds ops !! 61%nat = Some (V3 0 0 0) /\ distanceSq b (V3 0 0 0) (V3 0 0 0) < 1 * 1 /\
    get_neighbors 61 (cartToGen b) l (V3 0 0 0) = Ok nb /\ 61%nat ∉ nb.
Proof.
  intros b ops.
  assert (HF : Forall box_op_ok [SetOrtho (V3 1 1 1)]) by (repeat constructor; unfold positive3; simpl; lra).
  pose proof (owf_box _ HF) as W. fold b in W. change (edges [SetOrtho (V3 1 1 1)]) with (V3 1 1 1) in W.
  assert (Hp : primary (cartToGen b (V3 0 0 0))).
  { intros i Hi. unfold cartToGen. rewrite (w_inv _ _ _ W). destruct i as [|[|[|]]]; try lia; cbn [vget vx vy vz]; lra. }
  assert (En : (V3 1 1 1)%Z = vmap (fun x => axis_num x 1) (oLen b)).
  { rewrite (w_len _ _ _ W). unfold vmap. cbn [vx vy vz]. assert (axis_num 1 1 = 1%Z) as ->; [|done]. unfold axis_num.
    replace (1 / 1) with 1 by field. rewrite (Rtrunc_unique 1 1%Z); [done|lra|lra]. }
  destruct (gwf_setup 61 63 ltac:(lia) (cartToGen b) (V3 1 1 1)%Z (oLen b) 1 (cl_new 63) ltac:(lra) ltac:(rewrite (w_len _ _ _ W); apply W) eq_refl En)
    as (l1 & Hl1 & I1 & _).
  assert (HS1 : sim 63 (cell_init 61) l1).
  { pose proof (ci_wf _ _ _ _ _ _ I1) as W1. split; [done|]. revert Hl1. unfold cl_setup. rewrite <- En.
    destruct (Rle_dec 1 0); [lra|]. cbn. intros [= <-]. split; [done|]. split; [done|].
    intros a Ha. cbn [clTags cl_clear tags cell_init]. rewrite lookup_empty. by apply lookup_replicate_2. }
  destruct mc_cell_overfill_refuted as (t & _ & Hrun & _ & Hnot & _).
  destruct (sim_run (cartToGen b) 61 63 overfill _ _ l1 Hp HS1 ltac:(apply (bool_decide_eq_true_1 (Forall _ _)); vm_compute; reflexivity) Hrun)
    as (l & Hr & W2 & Hcells & _ & _).
  exists l1, l, (cell_atoms (tcell t)). split; [done|]. split; [done|]. split; [|split; [done|split; [|split; [|done]]]].
  - assert (HR : forall h g, (size h <= 61)%nat -> room (cartToGen b) (V3 1 1 1)%Z 61 h g).
    { intros h g Hs ll Hnd Hll. etrans; [|apply Hs]. rewrite <- (size_dom h).
      assert (list_to_set ll ⊆ dom h).
      { intros a Ha%elem_of_list_to_set. destruct (Hll a Ha) as (q & Hq & _). apply elem_of_dom. by eexists. }
      rewrite <- (size_list_to_set (C:=gset nat) ll Hnd). by apply subseteq_size. }
    clear - HR Hp. subst ops.
    assert (forall os (h : held_at) (hs : gset nat), dom h = hs -> proper 62 hs os ->
       Forall (fun o => match o with AddAtom a => a | DelAtom a => a end < 63)%nat os ->
       cl_proper (cartToGen b) (V3 1 1 1)%Z 61 63 h (map one_op os)) as HH.
    { induction os as [|o os IH]; intros h hs Hd Hpr Hlt; [done|]. destruct Hpr as [Ho Hpr]. inversion_clear Hlt.
      destruct o as [a|a]; cbn [map one_op cl_proper].
      - destruct Ho as [Ha Hsz]. split; [split; [done|]|].
        + split; [apply not_elem_of_dom; by rewrite Hd|]. split; [done|]. apply HR. rewrite <- (size_dom h), Hd. lia.
        + apply (IH _ ({[a]} ∪ hs)); [|done|done]. cbn [at_step]. by rewrite dom_insert_L, Hd.
      - split; [apply elem_of_dom; by rewrite Hd|]. apply (IH _ (hs ∖ {[a]})); [|done|done].
        cbn [at_step]. by rewrite dom_delete_L, Hd. }
    apply (HH overfill ∅ ∅); [by rewrite dom_empty_L| |].
    + destruct mc_cell_overfill_refuted as (t & Hpr & _). exact Hpr.
    + apply (bool_decide_eq_true_1 (Forall _ _)); vm_compute; reflexivity.
  - unfold distanceSq. rewrite !(sep_eq b _ _ _ _ _ W) by lia. cbn [vget vx vy vz].
    assert (sep_axis (1 / 2) 1 0 0 = (0 - 0, 0%Z)) as ->.
    { unfold sep_axis. rewrite Rminus_0_r, Rabs_R0. destruct (Rgt_dec 0 (1 / 2)); [lra|done]. }
    cbn [fst]. lra.
  - unfold get_neighbors. destruct (g_index _ _ W2 (cartToGen b) _ Hp) as [-> Hg].
    assert (Hcc : ccell (V3 1 1 1)%Z (cartToGen b (V3 0 0 0)) = (V3 0 0 0)%Z).
    { destruct (ccell _ _) as [x y z]. pose proof (Hg 0%nat ltac:(lia)). pose proof (Hg 1%nat ltac:(lia)). pose proof (Hg 2%nat ltac:(lia)).
      cbn in *. f_equal; lia. }
    rewrite (neighbors_eq 61 l (V3 1 1 1)%Z); [|done|done|].
    + rewrite Hcells, Hcc. cbn [obind]. change (cidx (V3 1 1 1)%Z (V3 0 0 0)%Z) with 0%Z.
      change (nbr (V3 1 1 1)%Z (V3 0 0 0)%Z) with [0%Z]. unfold others. rewrite filter_cons, decide_False by auto.
      cbn. by rewrite app_nil_r.
    + intros j Hj. rewrite (g_tot _ _ W2) in Hj. cbn in Hj. assert (j = 0%Z) as -> by lia. rewrite Hcells. unfold atoms_of. cbn.
      assert (HE : match run (cell_step 61) (cell_init 61) overfill with
                   Ok t => Nat.leb (length (cell_atoms (tcell t))) 61 | _ => false end = true) by (vm_compute; reflexivity).
      rewrite Hrun in HE. by apply Nat.leb_le in HE.
Qed.
Print Assumptions cell_index_correct.
Print Assumptions cell_list_finds_neighbors_partial.
Print Assumptions cell_list_finds_neighbors_mono_partial.
Print Assumptions cell_list_overfull_refuted.
