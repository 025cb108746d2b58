(** Clusters of molecules found by ClusterIdentifier (C86). *)
From stdpp Require Import relations gmap.
From Verif Require Import Base Vec3 BoxSpec OrthoModel OrthoSpec OrthoProofs OrthoProps MonoModel MonoSpec MonoProofs MonoProps.
From Verif Require Import McCellModel DomainModel DomainProofs SpeciesModel SpeciesProofs.
From Verif Require Import CellListModel CellListSpec CellListProofs CellListProps PairListModel PairListSpec PairListProofs PairListProps.
From Verif Require Import EnergyModel EnergySpec EnergyProofs MoveModel MoveSpec MoveProofs EnergyProps MoveProps ClusterModel ClusterSpec ClusterProofs.
From Coq Require Import Reals Lra.
Local Open Scope R_scope.

Lemma cores_nodup atomsOf core molOf : forall mols, NoDup mols -> (forall m, m ∈ mols -> NoDup (atomsOf m)) ->
  (forall m a, m ∈ mols -> a ∈ atomsOf m -> molOf a = m) -> NoDup (cores atomsOf core mols).
Proof.
  induction mols as [|m mols IH]; intros Hnd Ha Hm; cbn [cores flat_map]; [constructor|]. apply NoDup_cons in Hnd as [Hn Hnd].
  apply NoDup_app. split; [|split].
  - apply NoDup_ListNoDup, List.NoDup_filter, NoDup_ListNoDup, Ha. left.
  - intros a H1 H2. apply cores_in in H2 as (m' & H2 & H3 & _). apply elem_of_list_In, filter_In in H1 as [H1 _]. apply elem_of_list_In in H1.
    apply Hn. rewrite <- (Hm m a ltac:(left) H1). rewrite (Hm m' a) by (done || by right). done.
  - apply IH; [done|intros x Hx; apply Ha; by right|]. intros x a Hx. apply Hm. by right.
Qed.

(** C86.  Take either boundary, any cutoff, a species of molecules with any numbers of atoms and any choice of core atoms, and any
    configuration in which core atoms are less than one cell outside the cell and no cell of the grid holds more than
    MaxAtomCell - 1 of them.  identifyClusters returns (there is never a clash, and isValid accepts the result); it wraps the core atoms
    into the cell, moves nothing else, empties the work stack, and its clusters are exactly the classes of molecules connected
    by chains of molecules with core atoms closer than the cutoff, each listed once by its links, with its number of molecules
    as size.  Nothing depends on the links and clusters left by an earlier call. *)
Theorem clusters_correct :
  forall M cap B cutoff n mols atomsOf core molOf s pos,
  (2 <= M)%nat -> a_boundary B -> 0 < cutoff -> grid_of (bLens B) cutoff n ->
  NoDup mols -> (forall m, m ∈ mols -> (m < length (iLinks s))%nat /\ NoDup (atomsOf m)) ->
  (forall m a, m ∈ mols -> a ∈ atomsOf m -> molOf a = m) ->
  (forall m a, m ∈ mols -> a ∈ atomsOf m -> core a = true -> (a < cap)%nat /\ near_cell_of (bBrav B) (pos a)) ->
  length (clTags (iCells s)) = cap -> iStack s = [] ->
  ~ crowded (bGen B) n (M - 1) (cores atomsOf core mols) (fun a => bWrap B (pos a)) ->
  exists s' pos', identify M (bGen B) (bDist B) (bWrap B) (bLens B) cutoff mols atomsOf core molOf s pos = Ok (s', pos') /\
    (forall a, pos' a = if decide (a ∈ cores atomsOf core mols) then bWrap B (pos a) else pos a) /\
    clusters_are (connected (bDist B) cutoff mols atomsOf core pos') mols (iLinks s') (iClusters s') /\
    length (iLinks s') = length (iLinks s) /\ iStack s' = [] /\ length (clTags (iCells s')) = cap.
Proof.
  intros M cap B cutoff n mols atomsOf core molOf s pos HM HB Hc HG Hnd Hmols HmolOf Hat Hcap Hst Hcr.
  pose proof (boundary_facts B HB) as F. pose proof (boundary_adj B cutoff n HB Hc HG) as Hadj.
  set (A := cores atomsOf core mols) in *.
  assert (HA : NoDup A) by (apply (cores_nodup atomsOf core molOf); [done|intros m Hm; by apply Hmols|done]).
  destruct (build_gen M cap HM (bGen B) (bWrap B) (bLens B) n cutoff (fun a => a) A HA (bf_pos B F) Hc HG (MC pos (fun _ => 0%Z) (iCells s)) Hcap) as (t & E & Hs & P1 & P2 & P3).
  { intros a Ha. apply cores_in in Ha as (m & H1 & H2 & H3). destruct (Hat m a H1 H2 H3) as [H4 H5]. split; [by apply F|done]. }
  { done. }
  unfold mc_build in E. cbn [sCells sPos sTy] in *. unfold identify. apply obind_Ok in E as (cells & -> & E). cbn [obind].
  destruct (fill_ok M (bGen B) (bWrap B) atomsOf core mols (map (fun _ => link_clear) (iLinks s)) (MC pos (fun _ => 0%Z) cells) t) as (links & -> & L1 & L2 & L3 & _).
  { intros m Hm. rewrite map_length. by apply Hmols. }
  { intros i l Hl. apply list_lookup_fmap_inv in Hl as (x & -> & _). done. }
  { exact E. }
  cbn [obind]. rewrite Hst. rewrite map_length in L1.
  destruct (holding_clinv M cap HM (bGen B) (bLens B) cutoff n A (bf_pos B F) Hc HG _ _ Hs) as (h & I & Hh).
  assert (CI : forall a, is_core mols atomsOf core a <-> a ∈ A) by (intros a; unfold is_core, A; by rewrite cores_in).
  assert (NB : forall i, exists nb, is_core mols atomsOf core i -> get_neighbors M (bGen B) (sCells t) (sPos t i) = Ok nb /\
     (forall j, j ∈ nb -> is_core mols atomsOf core j) /\
     forall j, is_core mols atomsOf core j -> bDist B (sPos t i) (sPos t j) < cutoff * cutoff -> j ∈ nb).
  { intros i. destruct (decide (i ∈ A)) as [Hi|Hi]; [|exists []; intros Hi'; by apply CI in Hi'].
    assert (forall a, a ∈ A -> primary (bGen B (sPos t a))) as Hp by (intros a Ha; by apply (holding_prim M cap HM (bGen B) (bLens B) cutoff n A (bf_pos B F) Hc HG _ _ _ Hs)).
    destruct (neighbors_spec M cap HM (bGen B) n _ _ _ I (Hp i Hi)) as (nb & nIn & _ & Hnb & _ & Hel & _). exists nb. intros _. split; [done|]. split.
    - intros j Hj. apply Hel in Hj as (q & Hq & _). rewrite Hh in Hq. case_decide; [by apply CI|done].
    - intros j Hj Hd. apply CI in Hj. apply Hel. exists (sPos t j). rewrite Hh, decide_True by done. split; [done|]. apply Hadj; auto. }
  assert (exists nbs : nat -> list nat, forall i, is_core mols atomsOf core i -> get_neighbors M (bGen B) (sCells t) (sPos t i) = Ok (nbs i) /\
     (forall j, j ∈ nbs i -> is_core mols atomsOf core j) /\
     forall j, is_core mols atomsOf core j -> bDist B (sPos t i) (sPos t j) < cutoff * cutoff -> j ∈ nbs i) as (nbs & Hnbs).
  { exists (fun i => match get_neighbors M (bGen B) (sCells t) (sPos t i) with Ok nb => nb | _ => [] end).
    intros i Hi. destruct (NB i) as (nb & H). destruct (H Hi) as (-> & ? & ?). done. }
  destruct (grows_ok M (bGen B) (bDist B) cutoff mols atomsOf core molOf (sPos t) (sCells t) Hnd HmolOf (bf_sym B F) nbs Hnbs (length links) mols links []) as (links' & cs & EG & G & Hall & _).
  { done. }
  { by apply grown_start. }
  rewrite EG. cbn [obind]. rewrite (valid_ok _ _ _ _ _ _ Hnd _ _ _ G Hall). cbn [obind].
  eexists _, _. split; [done|]. cbn [iLinks iClusters iStack iCells]. split; [intros a; case_decide; auto|]. split; [by eapply grown_spec|].
  split; [rewrite (g_len _ _ _ _ _ _ _ _ _ G); done|]. split; [done|].
  exact (ci_cap _ _ _ _ _ _ I).
Qed.

Lemma touch_by_images B cutoff mols atomsOf core pos pos' :
  (forall r, near_cell_of (bBrav B) r -> exists k, r = vadd (bWrap B r) (lattice_vector (bBrav B) k)) ->
  (forall r q, exists m, bDist B r q = normSq (vadd (vsub r q) (lattice_vector (bBrav B) m))) ->
  (forall r, near_cell_of (bBrav B) r -> primary (bGen B (bWrap B r))) ->
  (forall r q m, primary (bGen B r) -> primary (bGen B q) -> normSq (vadd (vsub r q) (lattice_vector (bBrav B) m)) < cutoff * cutoff -> bDist B r q < cutoff * cutoff) ->
  (forall m a, m ∈ mols -> a ∈ atomsOf m -> core a = true -> near_cell_of (bBrav B) (pos a) /\ pos' a = bWrap B (pos a)) ->
  forall m1 m2, touch (bDist B) cutoff mols atomsOf core pos' m1 m2 <-> touch_images (bBrav B) cutoff mols atomsOf core pos m1 m2.
Proof.
  intros Hw Him Hp Hmin Hat m1 m2.
  assert (K : forall a b m, near_cell_of (bBrav B) a -> near_cell_of (bBrav B) b ->
    exists m', vadd (vsub a b) (lattice_vector (bBrav B) m') = vadd (vsub (bWrap B a) (bWrap B b)) (lattice_vector (bBrav B) m)).
  { intros a b m Ha Hb. destruct (Hw a Ha) as (k & Ek), (Hw b Hb) as (k' & Ek').
    exists (V3 (vx m - vx k + vx k') (vy m - vy k + vy k') (vz m - vz k + vz k'))%Z. rewrite Ek at 1. rewrite Ek' at 1.
    unfold lattice_vector, combo, vadd, vscale, vmap, vsub. cbn [vx vy vz]. rewrite !plus_IZR, !minus_IZR. f_equal; ring. }
  assert (K' : forall a b m, near_cell_of (bBrav B) a -> near_cell_of (bBrav B) b ->
    exists m', vadd (vsub a b) (lattice_vector (bBrav B) m) = vadd (vsub (bWrap B a) (bWrap B b)) (lattice_vector (bBrav B) m')).
  { intros a b m Ha Hb. destruct (Hw a Ha) as (k & Ek), (Hw b Hb) as (k' & Ek').
    exists (V3 (vx m + vx k - vx k') (vy m + vy k - vy k') (vz m + vz k - vz k'))%Z. rewrite Ek at 1. rewrite Ek' at 1.
    unfold lattice_vector, combo, vadd, vscale, vmap, vsub. cbn [vx vy vz]. rewrite !minus_IZR, !plus_IZR. f_equal; ring. }
  split; intros (H1 & H2 & H); (split; [done|]; split; [done|]).
  - destruct H as (a & b & Ha & Hb & Ca & Cb & Hd). destruct (Hat m1 a H1 Ha Ca) as [Na Ea], (Hat m2 b H2 Hb Cb) as [Nb Eb].
    rewrite Ea, Eb in Hd. destruct (Him (bWrap B (pos a)) (bWrap B (pos b))) as (m & E). destruct (K (pos a) (pos b) m Na Nb) as (m' & E').
    exists a, b, m'. rewrite E', <- E. done.
  - destruct H as (a & b & n & Ha & Hb & Ca & Cb & Hd). destruct (Hat m1 a H1 Ha Ca) as [Na Ea], (Hat m2 b H2 Hb Cb) as [Nb Eb].
    destruct (K' (pos a) (pos b) n Na Nb) as (m' & E'). rewrite E' in Hd. exists a, b. rewrite Ea, Eb. split_and!; try done.
    apply (Hmin _ _ m'); auto.
Qed.
Lemma clusters_iff (T T' : nat -> nat -> Prop) mols links cs : (forall x y, T x y <-> T' x y) -> clusters_are (rtc T) mols links cs -> clusters_are (rtc T') mols links cs.
Proof.
  intros E (H1 & H2 & H3). assert (R : forall x y, rtc T x y <-> rtc T' x y).
  { intros x y. split; apply rtc_subrel; intros a b; apply E. }
  split; [done|]. split; [done|]. intros m1 m2 l1 l2 A1 A2 A3 A4. rewrite <- R. by apply H3.
Qed.

(** In an orthorhombic box the clusters are those of the given configuration, by any periodic images, before the atoms are wrapped. *)
Theorem clusters_correct_ortho :
  forall M cap b cutoff n mols atomsOf core molOf s pos,
  (2 <= M)%nat -> a_box b -> 0 < cutoff -> grid_of (oLen b) cutoff n ->
  NoDup mols -> (forall m, m ∈ mols -> (m < length (iLinks s))%nat /\ NoDup (atomsOf m)) ->
  (forall m a, m ∈ mols -> a ∈ atomsOf m -> molOf a = m) ->
  (forall m a, m ∈ mols -> a ∈ atomsOf m -> core a = true -> (a < cap)%nat /\ near_cell_of (oBrav b) (pos a)) ->
  length (clTags (iCells s)) = cap -> iStack s = [] ->
  ~ crowded (cartToGen b) n (M - 1) (cores atomsOf core mols) (fun a => shift1 b (pos a)) ->
  exists s' pos', identify M (cartToGen b) (distanceSq b) (shift1 b) (oLen b) cutoff mols atomsOf core molOf s pos = Ok (s', pos') /\
    clusters_are (rtc (touch_images (oBrav b) cutoff mols atomsOf core pos)) mols (iLinks s') (iClusters s').
Proof.
  intros M cap b cutoff n mols atomsOf core molOf s pos HM Hb Hc HG Hnd Hmols HmolOf Hat Hcap Hst Hcr.
  assert (HB : a_boundary (ortho_bd b)) by (left; eauto). pose proof (boundary_facts _ HB) as F.
  destruct (clusters_correct M cap (ortho_bd b) cutoff n mols atomsOf core molOf s pos HM HB Hc HG Hnd Hmols HmolOf Hat Hcap Hst Hcr) as (s' & pos' & E & HP & HC & _).
  exists s', pos'. split; [done|]. revert HC. apply clusters_iff. apply (touch_by_images (ortho_bd b)).
  - cbn [ortho_bd bBrav bWrap]. intros r Hr. destruct (OrthoModel.shift b r (V3 0 0 0)%Z) as [r' t] eqn:Es.
    destruct (ortho_shift_wraps b _ _ _ _ Hb (near_ortho b r Hb Hr) Es) as (_ & E1 & _ & -> & _). exists t.
    destruct (owf_a_box b Hb) as (l & lat & W). rewrite (w_brav _ _ _ W). rewrite (w_len _ _ _ W) in E1.
    apply vec3_ext. intros i Hi. specialize (E1 i Hi). rewrite E1.
    assert (HV : forall w t, vget (vadd w (lattice_vector (diag (vget l)) t)) i = vget w i + IZR (vget t i) * vget l i).
    { intros w t0. rewrite <- lattice_diag by done. destruct w. destruct i as [|[|[|]]]; try lia; done. }
    rewrite HV. f_equal. f_equal. f_equal. destruct i as [|[|[|]]]; try lia; cbn [vget vx vy vz]; lia.
  - apply F.
  - apply F.
  - cbn [ortho_bd bGen bDist bBrav]. intros r q m Hr Hq Hd. pose proof (ortho_distanceSq_min_image b r q Hb) as HMI.
    destruct (distanceSq_shift b r q) as [d t]. destruct (distanceSq_dr b r q) as [d' dr].
    destruct HMI as (E1 & _ & _ & _ & Hmin & _).
    + intros i Hi'. pose proof (proj2 (proj2 (proj2 (ortho_transforms_inverse b Hb)))) as Hbox.
      destruct Hbox as [_ Hbox]. pose proof (proj2 (Hbox r) Hr i Hi'). pose proof (proj2 (Hbox q) Hq i Hi').
      unfold Rabs. destruct (Rcase_abs _); lra.
    + specialize (Hmin m). rewrite <- E1. lra.
  - intros m a Hm Ha Hca. destruct (Hat m a Hm Ha Hca). split; [done|]. rewrite HP, decide_True; [done|]. apply cores_in. eauto.
Qed.
(** The same for a monoclinic box whose cutoff is at most minLength()/2. *)
Theorem clusters_correct_mono :
  forall M cap b cutoff n mols atomsOf core molOf s pos,
  (2 <= M)%nat -> a_mbox b -> 0 < cutoff <= mMinLen b / 2 -> grid_of (mLengths b) cutoff n ->
  NoDup mols -> (forall m, m ∈ mols -> (m < length (iLinks s))%nat /\ NoDup (atomsOf m)) ->
  (forall m a, m ∈ mols -> a ∈ atomsOf m -> molOf a = m) ->
  (forall m a, m ∈ mols -> a ∈ atomsOf m -> core a = true -> (a < cap)%nat /\ near_cell_of (mBrav b) (pos a)) ->
  length (clTags (iCells s)) = cap -> iStack s = [] ->
  ~ crowded (mono_cartToGen b) n (M - 1) (cores atomsOf core mols) (fun a => mono_shift1 b (pos a)) ->
  exists s' pos', identify M (mono_cartToGen b) (mono_distanceSq b) (mono_shift1 b) (mLengths b) cutoff mols atomsOf core molOf s pos = Ok (s', pos') /\
    clusters_are (rtc (touch_images (mBrav b) cutoff mols atomsOf core pos)) mols (iLinks s') (iClusters s').
Proof.
  intros M cap b cutoff n mols atomsOf core molOf s pos HM Hb [Hc Hml] HG Hnd Hmols HmolOf Hat Hcap Hst Hcr.
  assert (HB : a_boundary (mono_bd b)) by (right; eauto). pose proof (boundary_facts _ HB) as F.
  destruct (clusters_correct M cap (mono_bd b) cutoff n mols atomsOf core molOf s pos HM HB Hc HG Hnd Hmols HmolOf Hat Hcap Hst Hcr) as (s' & pos' & E & HP & HC & _).
  exists s', pos'. split; [done|]. revert HC. apply clusters_iff. apply (touch_by_images (mono_bd b)).
  - cbn [mono_bd bBrav bWrap]. intros r Hr. destruct (mono_shift b r (V3 0 0 0)%Z) as [r' t] eqn:Es.
    destruct (mono_shift_wraps b _ _ _ _ Hb Hr Es) as (_ & E1 & _ & -> & _). eauto.
  - apply F.
  - apply F.
  - cbn [mono_bd bGen bDist bBrav]. intros r q m Hr Hq Hd. pose proof (mono_distanceSq_image_partial b r q Hb) as HMI.
    destruct (mono_distanceSq_shift b r q) as [d2 t]. destruct (mono_distanceSq_dr b r q) as [d' dr].
    destruct HMI as (E1 & _ & _ & _ & _ & _ & Hmin).
    + intros i Hi'. pose proof (Hr i Hi'). pose proof (Hq i Hi'). unfold Rabs. destruct (Rcase_abs _); lra.
    + destruct (Hmin m) as [E2 _]; [nra|]. rewrite <- E1, E2. done.
  - intros m a Hm Ha Hca. destruct (Hat m a Hm Ha Hca). split; [done|]. rewrite HP, decide_True; [done|]. apply cores_in. eauto.
Qed.

(** Three molecules in a box of side 10: atoms 0 and 1 of molecules 0 and 1 are 3/5 apart through a face; molecule 2 has atoms 2 and 3, of which 2 is
    a core atom.  The call finds the clusters 0 (molecules 0 and 1) and 1 (molecule 2). *)
Definition cx_atoms (m : nat) : list nat := match m with 2%nat => [2; 3]%nat | _ => [m] end.
Definition cx_core (a : nat) : bool := match a with 3%nat => false | _ => true end.
Definition cx_mol (a : nat) : nat := match a with 3%nat => 2%nat | _ => a end.
Example clusters_example :
  exists s' pos', identify 61 (cartToGen ex_box) (distanceSq ex_box) (shift1 ex_box) (oLen ex_box) 1 [0; 1; 2]%nat cx_atoms cx_core cx_mol (ident_new 5 4) ex_pos = Ok (s', pos') /\
    clusters_are (rtc (touch_images (oBrav ex_box) 1 [0; 1; 2]%nat cx_atoms cx_core ex_pos)) [0; 1; 2]%nat (iLinks s') (iClusters s') /\
    rtc (touch_images (oBrav ex_box) 1 [0; 1; 2]%nat cx_atoms cx_core ex_pos) 0%nat 1%nat /\
    ~ rtc (touch_images (oBrav ex_box) 1 [0; 1; 2]%nat cx_atoms cx_core ex_pos) 0%nat 2%nat.
Proof.
  assert (HB : a_box ex_box) by apply ex_a_box.
  assert (HA : forall m a, m ∈ [0; 1; 2]%nat -> a ∈ cx_atoms m -> cx_mol a = m /\ (a < 4)%nat).
  { intros m a Hm Ha. rewrite !elem_of_cons, elem_of_nil in Hm. destruct Hm as [->|[->|[->|[]]]]; cbn in Ha; rewrite !elem_of_cons, elem_of_nil in Ha;
      repeat (destruct Ha as [->|Ha]; [split; [done|lia]|]); done. }
  destruct (clusters_correct_ortho 61 4 ex_box 1 (V3 10 10 10)%Z [0; 1; 2]%nat cx_atoms cx_core cx_mol (ident_new 5 4) ex_pos) as (s' & pos' & E & HC).
  - lia.
  - done.
  - lra.
  - apply ex_grid10.
  - apply (bool_decide_eq_true_1 (NoDup _)); reflexivity.
  - intros m Hm. rewrite !elem_of_cons, elem_of_nil in Hm. destruct Hm as [->|[->|[->|[]]]]; (split; [cbn; lia|]); apply (bool_decide_eq_true_1 (NoDup _)); reflexivity.
  - intros m a Hm Ha. by apply HA.
  - intros m a Hm Ha _. split; [by apply (HA m a)|apply ex_near].
  - done.
  - done.
  - apply few_not_crowded. cbn. lia.
  - exists s', pos'. split; [done|]. split; [done|]. destruct ex_wf as [lat W].
    assert (LV : forall v t i, (i < 3)%nat -> vget (vadd v (lattice_vector (oBrav ex_box) t)) i = vget v i + IZR (vget t i) * 10).
    { intros v t i Hi. rewrite (w_brav _ _ _ W). assert (10 = vget (V3 10 10 10) i) as -> by (destruct i as [|[|[|]]]; try lia; done). rewrite <- lattice_diag by done. destruct v. destruct i as [|[|[|]]]; try lia; done. }
    assert (NS : forall v, normSq v = vget v 0%nat * vget v 0%nat + vget v 1%nat * vget v 1%nat + vget v 2%nat * vget v 2%nat).
    { intros [x y z]. unfold normSq, vdot. cbn [vget vx vy vz]. ring. }
    assert (N2 : forall m, touch_images (oBrav ex_box) 1 [0; 1; 2]%nat cx_atoms cx_core ex_pos m 2%nat -> m = 2%nat).
    { intros m (Hm & _ & a & b & n & Ha & Hb & Ca & Cb & Hd). destruct (decide (m = 2%nat)) as [|Hne]; [done|exfalso].
      assert (b = 2%nat) as ->. { cbn in Hb. rewrite !elem_of_cons, elem_of_nil in Hb. destruct Hb as [->|[->|[]]]; [done|]. done. }
      assert (vget (ex_pos a) 1%nat = 1) as Ey.
      { rewrite !elem_of_cons, elem_of_nil in Hm. destruct Hm as [->|[->|[->|[]]]]; [| |done]; cbn in Ha; apply elem_of_list_singleton in Ha as ->; done. }
      rewrite NS, !LV in Hd by lia. cbn [vsub vget vx vy vz] in Hd. cbn [vget] in Ey.
      set (X := vx (ex_pos a) - vx (ex_pos 2) + IZR (vx n) * 10) in Hd. set (Z0 := vz (ex_pos a) - vz (ex_pos 2) + IZR (vz n) * 10) in Hd.
      rewrite Ey in Hd. cbn [ex_pos vy] in Hd. set (y := vy n) in *. pose proof (Rle_0_sqr X) as SX. pose proof (Rle_0_sqr Z0) as SZ. unfold Rsqr in *.
      assert (-1 < 1 - 5 + IZR y * 10 < 1) as [Y1 Y2] by nra.
      assert (0 < IZR y < 1) as [Y3 Y4] by lra. apply lt_IZR in Y3, Y4. lia. }
    split.
    + apply rtc_once. split; [left|]. split; [right; left|]. exists 0%nat, 1%nat, (V3 0 0 0)%Z. split; [left|]. split; [left|]. split; [done|]. split; [done|].
      rewrite NS, !LV by lia. cbn [ex_pos vsub vget vx vy vz]. lra.
    + intros H. apply rtc_inv_r in H as [?|(y & Hy & H)]; [done|]. revert Hy.
      assert (forall x z, rtc (touch_images (oBrav ex_box) 1 [0; 1; 2]%nat cx_atoms cx_core ex_pos) x z -> z = 2%nat -> x = 2%nat) as K.
      { intros x z Hx. induction Hx as [|x y' z' H1 H2 IH]; intros Ez; [done|]. specialize (IH Ez). subst. by apply N2. }
      intros Hy. apply N2 in H. subst y. by specialize (K _ _ Hy eq_refl).
Qed.

Print Assumptions clusters_correct.
Print Assumptions clusters_correct_ortho.
Print Assumptions clusters_correct_mono.
