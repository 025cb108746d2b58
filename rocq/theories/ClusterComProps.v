(** Centres and second moments of clusters (C98). *)
From stdpp Require Import relations gmap.
From Verif Require Import Base Vec3 BoxSpec OrthoModel OrthoSpec OrthoProofs OrthoProps MonoModel MonoSpec MonoProofs MonoProps.
From Verif Require Import McCellModel DomainModel DomainProofs SpeciesModel SpeciesProofs.
From Verif Require Import CellListModel CellListSpec CellListProofs CellListProps PairListModel PairListSpec PairListProofs PairListProps.
From Verif Require Import EnergyModel EnergySpec EnergyProofs MoveModel MoveSpec MoveProofs EnergyProps MoveProps MdModel MdSpec.
From Verif Require Import ClusterModel ClusterSpec ClusterProofs ClusterProps ClusterComModel ClusterComSpec ClusterComProofs.
From Coq Require Import Reals Lra.
Local Open Scope R_scope.

(** boundary.distanceSq(r1, r2, dr) of an orthorhombic boundary, as a separation. *)
Notation dr_of b := (fun r1 r2 => (distanceSq_dr b r1 r2).2).

(** C98.  Take a cluster as identifyClusters leaves it (its molecules are linked from head()), with atoms of the type in the cell.  If each
    of them has a periodic image less than half an edge, along every axis, from an image of the first atom of the molecule at the head
    of the list, clusterCOM returns a point of the cell that is a periodic image of the mean of these images.  If the images are
    also less than half an edge from their mean, momentTensor returns their second moments about that mean. *)
Theorem cluster_com_correct :
  forall b links c h L a0 tl pos atomsOf ofType u,
  a_box b -> linked links (cHead c) (h :: L) -> NoDup (h :: L) -> (forall m l, m ∈ h :: L -> links !! m = Some l -> lMol l = Some m) ->
  atomsOf h = a0 :: tl ->
  let A := members atomsOf ofType (h :: L) in
  A <> [] -> (forall a, a ∈ A -> in_box b (pos a)) ->
  (forall i, (i < 3)%nat -> - (1/2) * vget (oLen b) i <= vget (pos a0) i < 3/2 * vget (oLen b) i) ->
  same_images (oBrav b) (a0 :: A) pos u -> (forall a, a ∈ A -> half_about (oLen b) (u a0) (u a)) ->
  (exists com k, clusterCOM (dr_of b) (shift1 b) atomsOf ofType (S (length links)) pos c links = Ok (Some com) /\ in_box b com /\
     com = vadd (mean A u) (lattice_vector (oBrav b) k)) /\
  ((forall a, a ∈ A -> half_about (oLen b) (mean A u) (u a)) ->
   exists T, momentTensor (dr_of b) (shift1 b) atomsOf ofType (S (length links)) pos c links = Ok (Some T) /\
     forall i j, (i < 3)%nat -> (j < 3)%nat -> vget (vget T i) j = moment A u (mean A u) i j).
Proof.
  intros b links c h L a0 tl pos atomsOf ofType u Hb HL Hnd Hmol Ha0 A Hne Hin Hr0 Hu Hhalf.
  destruct (owf_a_box b Hb) as (l & lat & W). pose proof (w_len _ _ _ W) as El.
  pose proof (linked_length _ _ _ HL Hnd) as Hlen.
  destruct (Hu a0 ltac:(left)) as (k0 & Ek0).
  assert (Hp : 0 < INR (length A)) by (apply lt_0_INR; destruct A; [done|cbn; lia]).
  assert (HZ : IZR (Z.of_nat (length A)) = INR (length A)) by (by rewrite INR_IZR_INZ).
  assert (HnZ : (Z.of_nat (length A) <> 0)%Z) by (destruct A; [done|cbn; lia]).
  assert (Hlp : forall i, (i < 3)%nat -> 0 < vget l i) by (intros i _; by apply pos3_get, W).
  set (raw := vadd (vscale (/ INR (length A)) (vadd (V3 0 0 0) (vsum_over A (fun a => (distanceSq_dr b (pos a) (pos a0)).2)))) (pos a0)).
  assert (Eor : com_origin atomsOf pos c links = Ok (pos a0)).
  { unfold com_origin. inversion HL as [|i x tl' H1 H2 Hh]; subst. unfold aget. rewrite H1. cbn [obind]. rewrite (Hmol h x ltac:(left) H1), Ha0. done. }
  assert (EC : clusterCOM (dr_of b) (shift1 b) atomsOf ofType (S (length links)) pos c links = Ok (Some (shift1 b raw))).
  { unfold clusterCOM. rewrite Eor. cbn [obind]. rewrite (over_atoms_ok atomsOf ofType _ links (h :: L)); [|done|done|lia]. cbn [obind].
    rewrite (fold_com (fun a => (distanceSq_dr b (pos a) (pos a0)).2)). fold A. rewrite Z.add_0_l, decide_False by done. rewrite HZ. done. }
  assert (Edr : forall a, a ∈ A -> (distanceSq_dr b (pos a) (pos a0)).2 = vsub (u a) (u a0)).
  { intros a Ha. destruct (Hu a ltac:(by right)) as (n & En). apply (sep_images b _ _ _ _ n k0); try done; [|by apply Hhalf].
    intros i Hi. specialize (Hin a Ha i Hi). specialize (Hr0 i Hi). rewrite El in *. specialize (Hlp i Hi). apply Rabs_le. lra. }
  assert (Hmean : forall i, (i < 3)%nat -> vget (mean A u) i = / INR (length A) * sum_over A (fun a => vget (u a) i)).
  { intros i Hi. unfold mean. by rewrite vget_vscale, vget_vsum. }
  assert (Eraw : forall i, (i < 3)%nat -> vget raw i = vget (mean A u) i - vget (u a0) i + vget (pos a0) i).
  { intros i Hi. unfold raw. rewrite vget_vadd, vget_vscale, vget_vadd, vget_vsum, Hmean by done.
    rewrite (sum_in_ext A _ (fun a => vget (u a) i - vget (u a0) i)) by (intros a Ha; by rewrite (Edr a Ha), vget_vsub).
    rewrite sum_minus_const. destruct i as [|[|[|]]]; try lia; cbn [vget vx vy vz]; field; lra. }
  assert (Hrange : forall i, (i < 3)%nat -> - vget (oLen b) i <= vget raw i < 2 * vget (oLen b) i).
  { intros i Hi. rewrite Eraw by done. assert (Rabs (/ INR (length A) * sum_over A (fun a => vget (u a) i - vget (u a0) i)) < vget (oLen b) i / 2) as Hm.
    { apply mean_bound; [done|]. intros a Ha. rewrite <- vget_vsub. by apply Hhalf. }
    rewrite sum_minus_const in Hm. replace (/ INR (length A) * (sum_over A (fun a => vget (u a) i) - INR (length A) * vget (u a0) i)) with (vget (mean A u) i - vget (u a0) i) in Hm
      by (rewrite Hmean by done; field; lra).
    apply Rabs_def2 in Hm. specialize (Hr0 i Hi). lra. }
  destruct (OrthoModel.shift b raw (V3 0 0 0)%Z) as [r' t] eqn:Es.
  destruct (ortho_shift_wraps b _ _ _ _ Hb Hrange Es) as (Hbox & Esh & _ & E1 & _).
  assert (Hcom : exists k, r' = vadd (mean A u) (lattice_vector (oBrav b) k)).
  { exists (V3 (- vx t - vx k0) (- vy t - vy k0) (- vz t - vz k0))%Z. apply vec3_ext. intros i Hi. rewrite (lattice_get b l lat _ _ _ W Hi).
    specialize (Esh i Hi). rewrite Eraw in Esh by done. rewrite Ek0, (lattice_get b l lat _ _ _ W Hi), El in Esh.
    assert (vget (V3 (- vx t - vx k0) (- vy t - vy k0) (- vz t - vz k0))%Z i = (- (vget t i - vget (V3 0 0 0)%Z i) - vget k0 i)%Z) as ->
      by (destruct i as [|[|[|]]]; try lia; cbn [vget vx vy vz]; lia).
    rewrite minus_IZR, opp_IZR. lra. }
  destruct Hcom as (k & Ek). split; [exists r', k; rewrite EC, E1; done|].
  intros Hm. unfold momentTensor. rewrite EC, E1. cbn [obind]. cbv zeta. rewrite (over_atoms_ok atomsOf ofType _ links (h :: L)); [|done|done|lia]. cbn [obind].
  rewrite (fold_moment (fun a => dyad (distanceSq_dr b (pos a) r').2 (distanceSq_dr b (pos a) r').2)). fold A. rewrite Z.add_0_l, decide_False by done. rewrite HZ.
  eexists. split; [done|]. intros i j Hi Hj.
  assert (Ed : forall a, a ∈ A -> (distanceSq_dr b (pos a) r').2 = vsub (u a) (mean A u)).
  { intros a Ha. destruct (Hu a ltac:(by right)) as (n & En).
    apply (sep_images b _ _ _ _ n (V3 (- vx k) (- vy k) (- vz k))%Z); [done| |done| |by apply Hm].
    - intros x Hx. specialize (Hin a Ha x Hx). specialize (Hbox x Hx). rewrite El in *. specialize (Hlp x Hx). apply Rabs_le. lra.
    - apply vec3_ext. intros x Hx. rewrite Ek, !(lattice_get b l lat _ _ _ W Hx).
      assert (vget (V3 (- vx k) (- vy k) (- vz k))%Z x = (- vget k x)%Z) as -> by (destruct x as [|[|[|]]]; try lia; done). rewrite opp_IZR. lra. }
  unfold moment. rewrite <- (sum_in_ext A (fun a => vget (distanceSq_dr b (pos a) r').2 i * vget (distanceSq_dr b (pos a) r').2 j)) by (intros a Ha; by rewrite (Ed a Ha)).
  generalize (fun a => (distanceSq_dr b (pos a) r').2). intros f. clear.
  destruct i as [|[|[|]]]; try lia; destruct j as [|[|[|]]]; try lia; cbn [tscale tadd tsum vget vx vy vz vscale vadd vsum_over dyad]; by rewrite Rplus_0_l.
Qed.

(** In particular both are right for every cluster whose atoms have images all less than half an edge apart along each axis, whatever the
    order of its molecules. *)
Theorem cluster_com_compact :
  forall b links c h L a0 tl pos atomsOf ofType u,
  a_box b -> linked links (cHead c) (h :: L) -> NoDup (h :: L) -> (forall m l, m ∈ h :: L -> links !! m = Some l -> lMol l = Some m) ->
  atomsOf h = a0 :: tl ->
  let A := members atomsOf ofType (h :: L) in
  A <> [] -> (forall a, a ∈ a0 :: A -> in_box b (pos a)) ->
  same_images (oBrav b) (a0 :: A) pos u -> (forall a a', a ∈ a0 :: A -> a' ∈ a0 :: A -> half_about (oLen b) (u a) (u a')) ->
  exists com k T, clusterCOM (dr_of b) (shift1 b) atomsOf ofType (S (length links)) pos c links = Ok (Some com) /\ in_box b com /\
    com = vadd (mean A u) (lattice_vector (oBrav b) k) /\
    momentTensor (dr_of b) (shift1 b) atomsOf ofType (S (length links)) pos c links = Ok (Some T) /\
    forall i j, (i < 3)%nat -> (j < 3)%nat -> vget (vget T i) j = moment A u (mean A u) i j.
Proof.
  intros b links c h L a0 tl pos atomsOf ofType u Hb HL Hnd Hmol Ha0 A Hne Hin Hu Hh.
  assert (Hp : 0 < INR (length A)) by (apply lt_0_INR; destruct A; [done|cbn; lia]).
  destruct (cluster_com_correct b links c h L a0 tl pos atomsOf ofType u Hb HL Hnd Hmol Ha0 Hne) as [(com & k & H1 & H2 & H3) HT].
  - intros a Ha. apply Hin. by right.
  - intros i Hi. pose proof (Hin a0 ltac:(left) i Hi). lra.
  - done.
  - intros a Ha. apply Hh; [left|by right].
  - fold A in HT, H3. destruct HT as (T & H4 & H5); [|exists com, k, T; done].
    intros a Ha i Hi. assert (E : vget (vsub (u a) (mean A u)) i = / INR (length A) * sum_over A (fun a' => vget (u a) i - vget (u a') i)).
    { rewrite vget_vsub. unfold mean. rewrite vget_vscale, vget_vsum by done.
      assert (sum_over A (fun a' => vget (u a) i - vget (u a') i) = INR (length A) * vget (u a) i - sum_over A (fun a' => vget (u a') i)) as ->; [|field; lra].
      clear. unfold sum_over. generalize (vget (u a) i). intros x. induction A as [|y A IH]; cbn [map Rsum]; [cbn; lra|]. rewrite IH. cbn [length]. rewrite S_INR. lra. }
    rewrite E. apply mean_bound; [done|]. intros a' Ha'. rewrite <- vget_vsub. apply Hh; [by right|by right|done].
Qed.

(** C98.  A cluster whose molecules have no atom of the type has neither centre nor moments: both are divided by zero.  identifyClusters
    makes such clusters: every molecule without core atoms is one. *)
Theorem cluster_com_no_atoms_refuted :
  forall b links c h L a0 tl pos atomsOf ofType,
  linked links (cHead c) (h :: L) -> NoDup (h :: L) -> (forall m l, m ∈ h :: L -> links !! m = Some l -> lMol l = Some m) ->
  atomsOf h = a0 :: tl -> members atomsOf ofType (h :: L) = [] ->
  clusterCOM (dr_of b) (shift1 b) atomsOf ofType (S (length links)) pos c links = Ok None /\
  momentTensor (dr_of b) (shift1 b) atomsOf ofType (S (length links)) pos c links = Ok None.
Proof.
  intros b links c h L a0 tl pos atomsOf ofType HL Hnd Hmol Ha0 Hno. pose proof (linked_length _ _ _ HL Hnd) as Hlen.
  assert (E : clusterCOM (dr_of b) (shift1 b) atomsOf ofType (S (length links)) pos c links = Ok None).
  { assert (exists x, cHead c = Some h /\ links !! h = Some x) as (x & Hh & H1) by (inversion HL; eauto).
    unfold clusterCOM, com_origin. rewrite Hh. unfold aget at 1. rewrite H1. cbn [obind]. rewrite (Hmol h x ltac:(left) H1), Ha0. cbn [obind].
    rewrite <- Hh. rewrite (over_atoms_ok atomsOf ofType _ links (h :: L)); [|done|done|lia]. rewrite Hno. done. }
  split; [done|]. unfold momentTensor. by rewrite E.
Qed.
Theorem no_core_is_cluster :
  forall dist2 cutoff mols atomsOf core pos links cs m,
  clusters_are (connected dist2 cutoff mols atomsOf core pos) mols links cs -> m ∈ mols ->
  (forall a, a ∈ atomsOf m -> core a = false) ->
  exists k c, cs !! k = Some c /\ linked links (cHead c) [m] /\ members atomsOf core [m] = [].
Proof.
  intros dist2 cutoff mols atomsOf core pos links cs m (H1 & H2 & H3) Hm Hno.
  destruct (H2 m Hm) as (l & k & Hl & _ & Ek & Hk). apply lookup_lt_is_Some in Hk as [c Hc]. exists k, c. split; [done|].
  destruct (H1 k c Hc) as (_ & L & HL & Hnd & _ & _ & Hin).
  assert (E : forall m', m' ∈ L -> m' = m).
  { intros m' Hm'. apply Hin in Hm' as (Hm' & l' & Hl' & Ek'). assert (connected dist2 cutoff mols atomsOf core pos m m') as HC by (apply (H3 m m' l l'); try done; congruence).
    inversion HC as [|x y z (_ & _ & a & b & Ha & _ & Hca & _) _]; subst; [done|]. by rewrite (Hno a Ha) in Hca. }
  assert (m ∈ L) as HmL by (apply Hin; eauto).
  assert (L = [m]) as ->.
  { destruct L as [|x L]; [by apply elem_of_nil in HmL|]. assert (x = m) as -> by (apply E; left). f_equal. destruct L as [|y L]; [done|].
    assert (y = m) as -> by (apply E; right; left). apply NoDup_cons in Hnd as [Hnd _]. exfalso. apply Hnd. left. }
  split; [done|]. unfold members. cbn [flat_map]. rewrite app_nil_r. generalize (atomsOf m), Hno. clear. intros as_ H.
  induction as_ as [|a as_ IH]; [done|]. cbn [List.filter]. rewrite (H a) by left. apply IH. intros x Hx. apply H. by right.
Qed.

(** One stretched molecule of four core atoms in a box of side 10. *)
Definition rod_pos (a : nat) : vec3 R := match a with 0%nat => V3 1 5 5 | 1%nat => V3 3 5 5 | 2%nat => V3 5 5 5 | _ => V3 7 5 5 end.
Definition rod_atoms (m : nat) : list nat := match m with O => [0; 1; 2; 3]%nat | _ => [] end.
(** The images that clusterCOM takes. *)
Definition rod_images (a : nat) : vec3 R := match a with 3%nat => V3 (-3) 5 5 | _ => rod_pos a end.
Lemma ex_len : oLen ex_box = V3 10 10 10.
Proof. destruct ex_wf as [lat W]. apply (w_len _ _ _ W). Qed.
Lemma rod_cases a : a ∈ [0; 1; 2; 3]%nat -> a = 0%nat \/ a = 1%nat \/ a = 2%nat \/ a = 3%nat.
Proof. rewrite !elem_of_cons, elem_of_nil. tauto. Qed.
Lemma rod_in a : in_box ex_box (rod_pos a).
Proof. intros i Hi. rewrite ex_len. destruct a as [|[|[|a]]], i as [|[|[|]]]; try lia; cbn [rod_pos vget vx vy vz]; lra. Qed.
Lemma box_unique b r k v : a_box b -> in_box b r -> in_box b v -> r = vadd v (lattice_vector (oBrav b) k) -> r = v.
Proof.
  intros Hb Hr Hv ->. destruct (owf_a_box b Hb) as (l & lat & W). apply vec3_ext. intros i Hi. specialize (Hr i Hi). specialize (Hv i Hi).
  rewrite (lattice_get b l lat _ _ _ W Hi) in *. rewrite (w_len _ _ _ W) in *. pose proof (pos3_get l i (w_pos _ _ _ W)) as HL.
  assert (vget k i = 0)%Z as ->; [|lra].
  assert (-1 < IZR (vget k i)) by (apply (Rmult_lt_reg_r (vget l i)); lra). assert (IZR (vget k i) < 1) by (apply (Rmult_lt_reg_r (vget l i)); lra).
  assert (-1 < vget k i)%Z by (apply lt_IZR; lra). assert (vget k i < 1)%Z by (apply lt_IZR; lra). lia.
Qed.

(** C98.  clusterCOM is not right for every cluster of identifyClusters that fits in the box: of one molecule with atoms at 1, 3, 5 and 7
    in a box of side 10, whose consecutive atoms are 2 apart and whose mean is 4, it returns 3/2. *)
Theorem cluster_com_extended_refuted :
  exists s' pos' c, identify 61 (cartToGen ex_box) (distanceSq ex_box) (shift1 ex_box) (oLen ex_box) 1 [0]%nat rod_atoms (fun _ => true) (fun _ => 0%nat) (ident_new 1 4) rod_pos = Ok (s', pos') /\
    (forall a, a ∈ [0; 1; 2; 3]%nat -> pos' a = rod_pos a) /\ iClusters s' !! 0%nat = Some c /\ linked (iLinks s') (cHead c) [0%nat] /\
    clusterCOM (dr_of ex_box) (shift1 ex_box) rod_atoms (fun _ => true) (S (length (iLinks s'))) pos' c (iLinks s') = Ok (Some (V3 (3/2) 5 5)) /\
    mean [0; 1; 2; 3]%nat rod_pos = V3 4 5 5.
Proof.
  assert (HB : a_boundary (ortho_bd ex_box)) by (left; exists ex_box; split; [apply ex_a_box|done]).
  assert (H0 : forall m, m ∈ [0%nat] -> m = 0%nat) by (intros m Hm; by apply elem_of_list_singleton in Hm).
  assert (Wr : forall a, shift1 ex_box (rod_pos a) = rod_pos a).
  { intros a. destruct ex_wf as [lat W]. apply vec3_ext. intros i Hi. rewrite vget_shift1 by done. rewrite (w_min _ _ _ W), (w_max _ _ _ W), (w_len _ _ _ W), vget_zero.
    pose proof (rod_in a i Hi) as H. rewrite ex_len in H. unfold shift1_axis. destruct (Rge_dec _ _); [lra|]. destruct (Rlt_dec _ _); [lra|done]. }
  destruct (clusters_correct 61 4 (ortho_bd ex_box) 1 (V3 10 10 10)%Z [0]%nat rod_atoms (fun _ => true) (fun _ => 0%nat) (ident_new 1 4) rod_pos) as (s' & pos' & E & HP & (C1 & C2 & C3) & EL & _).
  - lia.
  - done.
  - lra.
  - apply ex_grid10.
  - apply (bool_decide_eq_true_1 (NoDup _)); reflexivity.
  - intros m Hm. apply H0 in Hm as ->. split; [cbn; lia|]. apply (bool_decide_eq_true_1 (NoDup _)); reflexivity.
  - intros m a Hm _. by apply H0 in Hm as ->.
  - intros m a Hm Ha _. apply H0 in Hm as ->. split; [apply rod_cases in Ha; lia|].
    exists (cartToGen ex_box (rod_pos a)). pose proof (ortho_transforms_inverse ex_box ex_a_box) as (T1 & T2 & T3 & T4 & T5).
    split; [cbn [ortho_bd bBrav]; by rewrite <- T3, T1|]. intros i Hi. pose proof (proj1 (T5 (rod_pos a)) (rod_in a) i Hi). lra.
  - done.
  - done.
  - apply few_not_crowded. cbn. lia.
  - cbn [ortho_bd bGen bDist bWrap bLens bBrav] in *. 
    assert (HP' : forall a, a ∈ [0; 1; 2; 3]%nat -> pos' a = rod_pos a).
    { intros a Ha. rewrite HP. case_decide; by rewrite ?Wr. }
    destruct (C2 0%nat ltac:(left)) as (l0 & k & Hl0 & Hm0 & Ek & Hk).
    assert (exists c, iClusters s' !! 0%nat = Some c) as (c & Hc) by (apply lookup_lt_is_Some; lia).
    destruct (C1 0%nat c Hc) as (_ & L & HL & Hnd & HLne & _ & Hin).
    assert (L = [0%nat]) as ->.
    { assert (forall m, m ∈ L -> m = 0%nat) as HE by (intros m Hm; apply Hin in Hm as [Hm _]; by apply H0).
      destruct L as [|x L]; [done|]. assert (x = 0%nat) as -> by (apply HE; left). f_equal. destruct L as [|y L]; [done|].
      assert (y = 0%nat) as -> by (apply HE; right; left). apply NoDup_cons in Hnd as [Hnd _]. exfalso. apply Hnd. left. }
    exists s', pos', c. split; [done|]. split; [done|]. split; [done|]. split; [done|].
    assert (HA : members rod_atoms (fun _ => true) [0%nat] = [0; 1; 2; 3]%nat) by reflexivity.
    assert (M4 : forall x, INR (length [0; 1; 2; 3]%nat) = x -> x = 4) by (intros x <-; cbn; lra).
    split; [|unfold mean, vsum_over, sum_over, vscale; cbn [map Rsum rod_pos vx vy vz]; rewrite (M4 _ eq_refl); f_equal; lra].
    destruct (cluster_com_correct ex_box (iLinks s') c 0%nat [] 0%nat [1; 2; 3]%nat pos' rod_atoms (fun _ => true) rod_images) as [(com & k' & EC & Hbox & Ecom) _].
    + apply ex_a_box.
    + done.
    + done.
    + intros m l Hm Hl. apply H0 in Hm as ->. congruence.
    + done.
    + rewrite HA. done.
    + rewrite HA. intros a Ha. rewrite HP' by done. apply rod_in.
    + intros i Hi. rewrite HP' by left. rewrite ex_len. destruct i as [|[|[|]]]; try lia; cbn [rod_pos vget vx vy vz]; lra.
    + rewrite HA. intros a Ha. assert (a ∈ [0; 1; 2; 3]%nat) as Ha' by (apply elem_of_cons in Ha as [->|Ha]; [left|done]). rewrite HP' by done.
      exists (match a with 3%nat => V3 (-1) 0 0 | _ => V3 0 0 0 end)%Z. destruct ex_wf as [lat W]. apply vec3_ext. intros i Hi. rewrite (lattice_get _ _ _ _ _ _ W Hi).
      apply rod_cases in Ha' as [->|[->|[->| ->]]]; destruct i as [|[|[|]]]; try lia; cbn [rod_images rod_pos vget vx vy vz]; lra.
    + rewrite HA. intros a Ha i Hi. rewrite ex_len. apply Rabs_def1;
      apply rod_cases in Ha as [->|[->|[->| ->]]]; destruct i as [|[|[|]]]; try lia; cbn [rod_images rod_pos vsub vget vx vy vz]; lra.
    + rewrite HA in Ecom. assert (mean [0; 1; 2; 3]%nat rod_images = V3 (3/2) 5 5) as Em.
      { unfold mean, vsum_over, sum_over, vscale. cbn [map Rsum rod_pos rod_images vx vy vz]. rewrite (M4 _ eq_refl). f_equal; lra. }
      rewrite Em in Ecom. apply box_unique in Ecom as ->; [done|apply ex_a_box|done|].
      intros i Hi. rewrite ex_len. destruct i as [|[|[|]]]; try lia; cbn [vget vx vy vz]; lra.
Qed.

(** Two molecules of one atom, at 1 and 9 along an edge of 10: the centre is the face between them. *)
Definition duo_pos (a : nat) : vec3 R := match a with O => V3 1 5 5 | _ => V3 9 5 5 end.
Definition duo_links : list clink := [CLk (Some 0%nat) None 0; CLk (Some 1%nat) (Some 0%nat) 0].
Example cluster_com_example :
  exists T, clusterCOM (dr_of ex_box) (shift1 ex_box) (fun m => [m]) (fun _ => true) 3 duo_pos (Clu 0 2 (Some 1%nat)) duo_links = Ok (Some (V3 0 5 5)) /\
    momentTensor (dr_of ex_box) (shift1 ex_box) (fun m => [m]) (fun _ => true) 3 duo_pos (Clu 0 2 (Some 1%nat)) duo_links = Ok (Some T) /\
    vget (vget T 0) 0 = 1 /\ vget (vget T 0) 1 = 0.
Proof.
  set (u := fun a : nat => match a with O => V3 11 5 5 | _ => V3 9 5 5 end).
  assert (D : forall a, a ∈ [1; 1; 0]%nat -> a = 0%nat \/ a = 1%nat) by (intros a; rewrite !elem_of_cons, elem_of_nil; tauto).
  assert (In : forall a, in_box ex_box (duo_pos a)).
  { intros a i Hi. rewrite ex_len. destruct a, i as [|[|[|]]]; try lia; cbn [duo_pos vget vx vy vz]; lra. }
  destruct (cluster_com_compact ex_box duo_links (Clu 0 2 (Some 1%nat)) 1%nat [0%nat] 1%nat [] duo_pos (fun m => [m]) (fun _ => true) u) as (com & k & T & H1 & H2 & H3 & H4 & H5).
  - apply ex_a_box.
  - econstructor; [done|]. econstructor; [done|]. constructor.
  - apply (bool_decide_eq_true_1 (NoDup _)); reflexivity.
  - intros m l Hm Hl. apply elem_of_cons in Hm as [->|Hm]; [|apply elem_of_list_singleton in Hm as ->]; cbn in Hl; by injection Hl as <-.
  - done.
  - done.
  - intros a _. apply In.
  - intros a Ha. apply D in Ha. exists (match a with O => V3 1 0 0 | _ => V3 0 0 0 end)%Z. destruct ex_wf as [lat W]. apply vec3_ext. intros i Hi. rewrite (lattice_get _ _ _ _ _ _ W Hi).
    destruct Ha as [->| ->]; destruct i as [|[|[|]]]; try lia; cbn [u duo_pos vget vx vy vz]; lra.
  - intros a a' Ha Ha' i Hi. rewrite ex_len. apply D in Ha, Ha'. apply Rabs_def1;
    destruct Ha as [->| ->]; destruct Ha' as [->| ->]; destruct i as [|[|[|]]]; try lia; cbn [u vsub vget vx vy vz]; lra.
  - change (members (fun m => [m]) (fun _ => true) [1%nat; 0%nat]) with [1; 0]%nat in *.
    assert (I2 : forall x, INR (length [1; 0]%nat) = x -> x = 2) by (intros x <-; cbn; lra).
    assert (mean [1; 0]%nat u = V3 10 5 5) as Em.
    { unfold mean, vsum_over, sum_over, vscale. cbn [map Rsum u vx vy vz]. rewrite (I2 _ eq_refl). f_equal; lra. }
    rewrite Em in *. exists T. split; [|split; [done|]].
    + etransitivity; [exact H1|]. f_equal. f_equal. apply (box_unique ex_box _ (V3 (vx k + 1) (vy k) (vz k))%Z); [apply ex_a_box|done| |].
      * intros i Hi. rewrite ex_len. destruct i as [|[|[|]]]; try lia; cbn [vget vx vy vz]; lra.
      * destruct ex_wf as [lat W]. apply vec3_ext. intros i Hi. rewrite H3, !(lattice_get _ _ _ _ _ _ W Hi). destruct i as [|[|[|]]]; try lia; cbn [vget vx vy vz]; rewrite ?plus_IZR; lra.
    + split; rewrite H5 by lia; unfold moment, sum_over; cbn [map Rsum u vsub vget vx vy vz]; rewrite (I2 _ eq_refl); lra.
Qed.

Print Assumptions cluster_com_correct.
Print Assumptions cluster_com_compact.
Print Assumptions cluster_com_extended_refuted.
Print Assumptions cluster_com_no_atoms_refuted.
Print Assumptions no_core_is_cluster.
