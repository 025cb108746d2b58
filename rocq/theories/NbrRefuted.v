(** Where the neighbour search of the parallel program fails, and examples. *)
From Verif Require Import Base Vec3 BoxSpec OrthoModel OrthoSpec OrthoProofs MonoModel MonoSpec MonoProofs DomainModel DomainSpec DomainProofs SpeciesModel SpeciesProofs
  NbrModel NbrSpec NbrOffsets NbrCells NbrGet NbrSearch NbrPairs NbrIter NbrProofs NbrProps.
From Coq Require Import Reals Lra.
Local Open Scope R_scope.

(** ** The first build *)
(** buildPairList throws whenever it is called for the first time (the list has no capacity for pairs yet) with
    no interacting pair: no memory is reserved (PairPotential.cpp:271-279) and PairList::build requires it (PairList.cpp). *)
Theorem pair_list_first_build_refuted : forall b cutoff cap capA lower upper n locals ghosts g masked rev s s' p, a_box b -> 0 < cutoff -> a_cell_list s ->
  holding cap lower upper locals ghosts g -> sym_mask masked (locals ++ ghosts) -> rev = true \/ 2 * (cutoff / vz (oLen b)) <= vz upper - vz lower ->
  buildCellList cap lower upper (scaled cutoff (oLen b)) n locals ghosts g s = Ok s' -> vCap2 p = 0%nat ->
  (forall a c, a ∈ locals -> c ∈ locals ++ ghosts -> a <> c -> ~ interacts cutoff (fun a => genToCart b (g a)) masked a c) ->
  buildPairList capA s' rev cutoff (fun a => genToCart b (g a)) masked p = Throw.
Proof.
  intros b cutoff cap capA lower upper n locals ghosts g masked rev s s' p Hb Hc Hs Hh Hm Hw E E0 Hno.
  pose proof (scaled_pos cutoff _ Hc (ortho_len_pos b Hb)) as HC.
  destruct (generic_built cap lower upper _ n locals ghosts g s s' rev HC Hs Hh Hw E) as [B M].
  pose proof (generic_counted cap lower upper _ n locals ghosts g (fun a => genToCart b (g a)) s s' rev cutoff masked HC Hs Hh (metric_ortho b cutoff n g Hb Hc) Hm Hw E) as [_ C _ _].
  destruct (buildPairList_spec lower upper _ n g (locals ++ ghosts) s' B rev cutoff (fun a => genToCart b (g a)) masked M capA p) as [[E' _]|(p' & _ & _ & _ & _ & H)]; [done|].
  exfalso. specialize (H E0). destruct (allpairs _ _ _ _ _ _ _) as [|[a c] L]; [done|]. destruct (C a c (elem_of_list_here _ _)) as (Ha & Hc' & Hne & Hi). by apply (Hno a c).
Qed.
(** Otherwise it succeeds unless one cell has more than 2000 neighbour atoms, and its behaviour is always defined. *)
Theorem pair_list_build_defined : forall b cutoff cap capA lower upper n locals ghosts g masked rev s s' p, a_box b -> 0 < cutoff -> a_cell_list s ->
  holding cap lower upper locals ghosts g -> sym_mask masked (locals ++ ghosts) -> rev = true \/ 2 * (cutoff / vz (oLen b)) <= vz upper - vz lower ->
  buildCellList cap lower upper (scaled cutoff (oLen b)) n locals ghosts g s = Ok s' -> (0 < capA)%nat ->
  buildPairList capA s' rev cutoff (fun a => genToCart b (g a)) masked p <> UB /\
  ((length locals + length ghosts <= 2000)%nat ->
   ((0 < vCap2 p)%nat \/ exists a c, a ∈ locals /\ c ∈ locals /\ a <> c /\ interacts cutoff (fun a => genToCart b (g a)) masked a c) ->
   exists p', buildPairList capA s' rev cutoff (fun a => genToCart b (g a)) masked p = Ok p').
Proof.
  intros b cutoff cap capA lower upper n locals ghosts g masked rev s s' p Hb Hc Hs Hh Hm Hw E Hcap.
  pose proof (scaled_pos cutoff _ Hc (ortho_len_pos b Hb)) as HC. split.
  - pose proof (generic_outcome cap capA lower upper _ n locals ghosts g (fun a => genToCart b (g a)) s s' rev cutoff masked p HC Hs Hh Hw E Hcap) as H.
    destruct (buildPairList _ _ _ _ _ _ _); done.
  - intros Hfew Hsome. eapply generic_ok; [done|done|done|done|done|done|exact Hfew|].
    destruct Hsome as [?|(a & c & Ha & Hc' & Hne & Hi)]; [by left|right]. 
    eapply some_pair; [done|done|done|by apply metric_ortho|done|done|done|exact Ha|exact Hc'|done|done].
Qed.

(** ** Monoclinic boxes *)
(** Edges 10, 10, 12.5 with d = -7.5: all three distances between faces are 10. *)
Definition skew : mono := mbox [SetMono (V3 10 10 (25 / 2)) (- (15 / 2))].
Lemma skew_ok : a_mbox skew.
Proof. exists [SetMono (V3 10 10 (25 / 2)) (- (15 / 2))]. split; [|done]. constructor; [|constructor]. simpl. unfold positive3; simpl. lra. Qed.
Lemma skew_wf : mwf skew (V3 10 10 (25 / 2)) (- (15 / 2)).
Proof.
  pose proof (mwf_box [SetMono (V3 10 10 (25 / 2)) (- (15 / 2))]) as H. simpl in H. apply H. constructor; [|constructor]. simpl. unfold positive3; simpl. lra.
Qed.
Lemma skew_cut : scaled 1 (mLengths skew) = V3 (1 / 10) (1 / 10) (1 / 10).
Proof.
  rewrite (m_lens _ _ _ skew_wf). unfold scaled. cbn [vx vy vz].
  assert (sqrt (1 + - - (15 / 2) / 10 * (- - (15 / 2) / 10)) = 5 / 4) as ->.
  { assert (1 + - - (15 / 2) / 10 * (- - (15 / 2) / 10) = 5 / 4 * (5 / 4)) as -> by field. apply sqrt_square. lra. }
  f_equal; field.
Qed.
Definition skew_pos (a : nat) : vec3 R :=
  match a with 0%nat => V3 (1 / 10) (22 / 1000) (22 / 1000) | 1%nat => V3 (1 / 10) (102 / 1000) (110 / 1000) | _ => V3 (1 / 10) (21 / 1000) (22 / 1000) end.
Notation zero3 := (V3 0 0 0) (only parsing).
Notation half3 := (V3 (1 / 2) (1 / 2) (1 / 2)) (only parsing).
Notation tenth3 := (V3 (1 / 10) (1 / 10) (1 / 10)) (only parsing).
Lemma skew_across : cells_across 0 (1 / 2) (1 / 10) 4 = 20%Z.
Proof. unfold cells_across. apply Int_part_eq. simpl. lra. Qed.
Lemma skew_grid s : grid_state zero3 half3 tenth3 4 s -> wGrid s = (V3 28 28 28)%Z /\ wLen s = V3 (1 / 40) (1 / 40) (1 / 40).
Proof.
  intros G. destruct G as [_ Ax Ay Az _ _ _ _ _]. cbn [vx vy vz] in *. pose proof skew_across as E.
  pose proof (across_axis _ _ _ _ _ _ Ax) as Ex. pose proof (across_axis _ _ _ _ _ _ Ay) as Ey. pose proof (across_axis _ _ _ _ _ _ Az) as Ez. rewrite E in *.
  pose proof (ax_len _ _ _ _ _ _ Ax) as Lx. pose proof (ax_len _ _ _ _ _ _ Ay) as Ly. pose proof (ax_len _ _ _ _ _ _ Az) as Lz.
  rewrite <- Ex in Lx. rewrite <- Ey in Ly. rewrite <- Ez in Lz.
  destruct (wGrid s) as [x y z], (wLen s) as [u v w]. cbn [vx vy vz] in *. split; f_equal; first [lia|lra].
Qed.
Lemma skew_coords s a : grid_state zero3 half3 tenth3 4 s -> (a < 2)%nat -> in_outer s (skew_pos a) /\ ccoords s (skew_pos a) = match a with 0%nat => (V3 8 4 4)%Z | _ => (V3 8 8 8)%Z end.
Proof.
  intros G Ha. pose proof (skew_grid s G) as [_ EL].
  assert (in_region zero3 half3 (skew_pos a)) as Hr.
  { unfold in_region, skew_pos. destruct a as [|[|a]]; [| |lia]; cbn [vx vy vz]; lra. }
  pose proof (region_outer _ _ _ _ _ G _ Hr) as Ho. split; [done|].
  rewrite (ccoords_cell _ _ _ _ _ _ G Ho). unfold cell_at, cell_along, vadd3. cbn [vx vy vz]. rewrite !skew_across.
  assert (forall x k, IZR k <= x * 40 < IZR k + 1 -> Int_part ((x - 0) / ((1 / 2 - 0) / 20)) = k) as HI.
  { intros x k H. apply Int_part_eq. assert ((x - 0) / ((1 / 2 - 0) / 20) = x * 40) as -> by field. done. }
  destruct a as [|[|a]]; [| |lia]; unfold skew_pos; cbn [vx vy vz].
  - rewrite (HI _ 4%Z), (HI (22 / 1000) 0%Z) by (simpl; lra). done.
  - rewrite (HI (1 / 10) 4%Z), (HI (102 / 1000) 4%Z), (HI (110 / 1000) 4%Z) by (simpl; lra). done.
Qed.
Lemma skew_within : within 1 (mono_genToCart skew (skew_pos 0)) (mono_genToCart skew (skew_pos 1)).
Proof.
  unfold within, normSq, vdot, vsub, mono_genToCart. rewrite (m_l _ _ _ skew_wf), (m_d _ _ _ skew_wf). unfold skew_pos. cbn [vx vy vz]. lra.
Qed.
Lemma skew_outside s : grid_state zero3 half3 tenth3 4 s -> ~ in_strips (wOff s) (grid_rank (wGrid s) (V3 0 4 4)%Z) /\ ~ in_strips (wOff s) (grid_rank (wGrid s) (V3 0 (-4) (-4))%Z).
Proof.
  intros G. pose proof (skew_grid s G) as [Ed El].
  assert (forall t : vec3 Z, in_cube 4 t -> inside (qvec s tenth3) t = false -> ~ in_strips (wOff s) (grid_rank (wGrid s) t)) as H.
  { intros t Ht Hi (t' & Ht' & Hi' & E)%(offsets_reach _ _ _ _ _ G). rewrite Ed in E.
    apply rank_inj2 with (n := 4%Z) in E; [congruence|lia|lia|cbn [vy]; lia|cbn [vz]; lia|done|done]. }
  assert (forall i : Z, i = 4%Z \/ i = (-4)%Z -> dd_e (1 / 40 / (1 / 10)) i = 9 / 16) as He.
  { intros i Hi. unfold dd_e. rewrite decide_False by lia. assert (Z.abs i - 1 = 3)%Z as -> by lia. cbv zeta. field. }
  assert (dd_e (1 / 40 / (1 / 10)) 0 = 0) as E0 by done.
  split; (apply H; [unfold in_cube; cbn [vx vy vz]; lia|]); unfold inside, qvec; rewrite El; cbn [vx vy vz];
    rewrite E0, He by lia; (destruct (Rle_dec _ 1); [exfalso; lra|done]).
Qed.
(** C32 is false for monoclinic boxes with more than one cell per cutoff: the squares of the scaled separations along
    reciprocal directions that are not orthogonal do not add up to the square of the distance.  Here (cutoff 1, nCellCut 4, a box with all
    face distances 10) two positions at distance 0.943 lie in cells that are not neighbours. *)
Theorem offsets_mono_refuted : exists s, dd_makeGrid zero3 half3 (scaled 1 (mLengths skew)) 4 (dcl_new 0) = Ok s /\
  exists x y, (0 <= dd_index s x)%Z /\ (0 <= dd_index s y)%Z /\ within 1 (mono_genToCart skew x) (mono_genToCart skew y) /\ ~ in_strips (wOff s) (dd_index s y - dd_index s x).
Proof.
  rewrite skew_cut. pose proof (makeGrid_spec zero3 half3 tenth3 4 (dcl_new 0)) as H. cbn [vx vy vz] in H.
  specialize (H ltac:(lra) (acl_inv _ (acl_new 0))).
  destruct (dd_makeGrid _ _ _ _ _) as [s| |]; [|exfalso; apply H; unfold region_ok; cbn [vx vy vz]; split; [lia|lra]|done].
  destruct H as [G _]. exists s. split; [done|]. exists (skew_pos 0), (skew_pos 1).
  destruct (skew_coords s 0 G ltac:(lia)) as [O0 E0]. destruct (skew_coords s 1 G ltac:(lia)) as [O1 E1].
  pose proof (gs_grid_ok _ _ _ _ _ G) as Gk. pose proof (coords_in _ _ _ _ _ G _ O0) as [I0 _]. pose proof (coords_in _ _ _ _ _ G _ O1) as [I1 _].
  rewrite !dd_index_in by done. split; [by apply rank_range|]. split; [by apply rank_range|]. split; [apply skew_within|].
  rewrite E0, E1. pose proof (skew_outside s G) as [HO _]. intros H. apply HO. revert H. unfold grid_rank. cbn [vx vy vz]. intros (st & Hst & HB). exists st. split; [done|]. lia.
Qed.
(** C31 is false there: a pair of local atoms at distance 0.943 is not listed in either order. *)
Theorem nbr_mono_lost_refuted : exists s p' l, buildCellList 3 zero3 half3 (scaled 1 (mLengths skew)) 4 [0; 1; 2]%nat [] skew_pos (dcl_new 0) = Ok s /\
  holding 3 zero3 half3 [0; 1; 2]%nat [] skew_pos /\
  buildPairList 3 s true 1 (fun a => mono_genToCart skew (skew_pos a)) (fun _ _ => false) dpl_new = Ok p' /\ visits p' l /\
  interacts 1 (fun a => mono_genToCart skew (skew_pos a)) (fun _ _ => false) 0 1 /\ (0, 1)%nat ∉ l /\ (1, 0)%nat ∉ l.
Proof.
  rewrite skew_cut.
  assert (holding 3 zero3 half3 [0; 1; 2]%nat [] skew_pos) as Hh.
  { constructor; [apply (bool_decide_unpack _); by vm_compute|simpl; lia| |intros a H; by apply elem_of_nil in H].
    intros a Ha. unfold owned. rewrite !elem_of_cons in Ha. destruct Ha as [->|[->|[->|Ha]]]; [..|by apply elem_of_nil in Ha]; unfold skew_pos; cbn [vx vy vz]; lra. }
  pose proof (buildCellList_spec 3 zero3 half3 tenth3 4 [0; 1; 2]%nat [] skew_pos (dcl_new 0)) as H. cbn [vx vy vz] in H.
  specialize (H ltac:(lra) (acl_inv _ (acl_new 0)) ltac:(simpl; lia)).
  destruct (buildCellList _ _ _ _ _ _ _ _ _) as [s| |] eqn:EB; [|exfalso; apply H; unfold region_ok; cbn [vx vy vz]; split; [lia|lra]|done].
  destruct H as [B _]. pose proof (bs_grid _ _ _ _ _ _ _ B) as G. set (r := fun a => mono_genToCart skew (skew_pos a)).
  destruct (buildPairList_spec zero3 half3 tenth3 4 skew_pos _ s B true 1 r (fun _ _ => false) (or_introl eq_refl) 3 dpl_new) as [[_ H]|(p' & E & Hv & _)].
  - exfalso. destruct H as [?|[(c & Hc & H)|[_ H]]]; [lia| |].
    + pose proof (nbof_length _ _ _ _ _ _ _ B (ho_nodup _ _ _ _ _ _ Hh) true r (fun _ _ => false) (or_introl eq_refl) c Hc) as HL. revert HL H. change (length ([0; 1; 2]%nat ++ [])) with 3%nat. unfold MaxNeighborAtom. lia.
    + (* atoms 0 and 2 are in the same cell *)
      assert ((0, 2)%nat ∈ allpairs tenth3 4 s true 1 r (fun _ _ => false)) as Hin; [|rewrite H in Hin; by apply elem_of_nil in Hin].
      destruct (skew_coords s 0 G ltac:(lia)) as [O0 E0].
      assert (in_region zero3 half3 (skew_pos 2)) as R2 by (unfold in_region, skew_pos; cbn [vx vy vz]; lra).
      pose proof (region_outer _ _ _ _ _ G _ R2) as O2.
      assert (ccoords s (skew_pos 2) = (V3 8 4 4)%Z) as E2.
      { rewrite (ccoords_cell _ _ _ _ _ _ G O2). unfold cell_at, cell_along, vadd3. cbn [vx vy vz]. rewrite !skew_across.
        assert (forall x k, IZR k <= x * 40 < IZR k + 1 -> Int_part ((x - 0) / ((1 / 2 - 0) / 20)) = k) as HI.
        { intros x k Hk. apply Int_part_eq. assert ((x - 0) / ((1 / 2 - 0) / 20) = x * 40) as -> by field. done. }
        unfold skew_pos; cbn [vx vy vz]. rewrite (HI (1 / 10) 4%Z), (HI (21 / 1000) 0%Z), (HI (22 / 1000) 0%Z) by (simpl; lra). done. }
      assert (in_region zero3 half3 (skew_pos 0)) as R0 by (unfold in_region, skew_pos; cbn [vx vy vz]; lra).
      assert (wTags s = tagged s skew_pos ([0; 1; 2]%nat ++ [])) as ET by apply (bs_tags _ _ _ _ _ _ _ B).
      assert (forall a, a ∈ [0; 1; 2]%nat -> in_outer s (skew_pos a) -> (a, grid_rank (wGrid s) (ccoords s (skew_pos a))) ∈ wTags s) as HT.
      { intros a Ha Ho. rewrite ET, elem_of_tagged, dd_index_in by done. split; [by rewrite app_nil_r|]. split; [done|].
        apply rank_range; [by eapply gs_grid_ok|]. by apply (coords_in _ _ _ _ _ G). }
      assert (0%nat ∈ [0; 1; 2]%nat) as I0 by (left). assert (2%nat ∈ [0; 1; 2]%nat) as I2 by (right; right; left).
      pose proof (HT 0%nat I0 O0) as T0. pose proof (HT 2%nat I2 O2) as T2. rewrite E0 in T0. rewrite E2 in T2.
      rewrite (elem_of_allpairs _ _ _ _ _ _ _ B (ho_nodup _ _ _ _ _ _ Hh)). split.
      * apply closeb_iff. split; [|done]. unfold r, within, normSq, vdot, vsub, mono_genToCart. rewrite (m_l _ _ _ skew_wf), (m_d _ _ _ skew_wf). unfold skew_pos. cbn [vx vy vz]. lra.
      * exists (grid_rank (wGrid s) (V3 8 4 4)%Z), (grid_rank (wGrid s) (V3 8 4 4)%Z).
        split. { rewrite (list_locals _ _ _ _ _ _ _ B), elem_of_dd_locals. exists (V3 8 4 4)%Z. split; [|done]. rewrite <- E0. by apply (coords_in _ _ _ _ _ G _ O0). }
        split; [done|]. split; [done|]. split; [by left|]. split; [left; lia|]. intros _.
        destruct (skew_coords s 1 G ltac:(lia)) as [O1 E1].
        assert (inC (wTags s) (grid_rank (wGrid s) (V3 8 4 4)%Z) = [0; 2]%nat) as EC.
        { rewrite ET. unfold tagged. cbn [map app]. rewrite !dd_index_in by done. rewrite E0, E1, E2.
          pose proof (skew_grid s G) as [Eg _]. rewrite Eg. by vm_compute. }
        exists 0%nat, 1%nat. rewrite EC. split; [lia|done].
  - exists s, p', (allpairs tenth3 4 s true 1 r (fun _ _ => false)). split; [done|]. split; [done|]. split; [done|]. split; [done|].
    split; [split; [apply skew_within|done]|].
    destruct (skew_coords s 0 G ltac:(lia)) as [O0 E0]. destruct (skew_coords s 1 G ltac:(lia)) as [O1 E1].
    pose proof (skew_outside s G) as [N1 N2].
    assert (forall a c, (a, c) ∈ wTags s -> c = dd_index s (skew_pos a)) as HT.
    { intros a c. rewrite (bs_tags _ _ _ _ _ _ _ B), elem_of_tagged. tauto. }
    destruct (nbr_offsets _ _ _ _ _ G) as [_ EO].
    assert (forall o, (o = 0%Z \/ o ∈ reach (wGrid s) (qvec s tenth3) 4) -> in_strips (wOff s) o) as HS.
    { intros o Ho. assert (o ∈ flat_map expand (wOff s)) as Hin by (rewrite EO; apply elem_of_cons; tauto).
      apply elem_of_flat_map in Hin as (st & Hst & Hin). exists st. split; [done|]. unfold expand in Hin. apply elem_of_seqZ in Hin. lia. }
    split; rewrite (elem_of_allpairs _ _ _ _ _ _ _ B (ho_nodup _ _ _ _ _ _ Hh)); intros (_ & c & c' & _ & H0 & H1 & Ho & _);
      apply HT in H0, H1; rewrite dd_index_in in H0, H1 by done; rewrite E0, E1 in *; subst c c'.
    + apply N1. apply HS. destruct Ho as [Ho|(o & Ho & Eo)]; revert Ho; [|revert Eo]; unfold grid_rank; cbn [vx vy vz]; intros; [left; lia|right].
      match goal with H : _ ∈ reach _ _ _ |- ?x ∈ _ => replace x with o by lia; exact H end.
    + apply N2. apply HS. destruct Ho as [Ho|(o & Ho & Eo)]; revert Ho; [|revert Eo]; unfold grid_rank; cbn [vx vy vz]; intros; [left; lia|right].
      match goal with H : _ ∈ reach _ _ _ |- ?x ∈ _ => replace x with o by lia; exact H end.
Qed.

(** ** Thin regions without reverse communication *)
Definition thin : ortho := box [SetOrtho (V3 4 2 2)].
Lemma thin_ok : a_box thin.
Proof. exists [SetOrtho (V3 4 2 2)]. split; [|done]. constructor; [|constructor]. simpl. unfold positive3; simpl. lra. Qed.
Lemma thin_len : oLen thin = V3 4 2 2.
Proof. unfold thin, box. simpl. unfold setOrthorhombic, ortho_reset. simpl. f_equal; lra. Qed.
Lemma thin_cut : scaled 1 (oLen thin) = V3 (1 / 4) (1 / 2) (1 / 2).
Proof. rewrite thin_len. done. Qed.
Definition thin_pos (a : nat) : vec3 R := match a with 0%nat => V3 (1 / 5) (1 / 4) (1 / 4) | _ => V3 (3 / 10) (1 / 4) (1 / 4) end.
Notation thin3 := (V3 (1 / 4) (1 / 2) (1 / 2)) (only parsing).
Lemma thin_holding : holding 2 zero3 half3 [0; 1]%nat [] thin_pos.
Proof.
  constructor; [apply (bool_decide_unpack _); by vm_compute|simpl; lia| |intros a H; by apply elem_of_nil in H].
  intros a Ha. unfold owned. rewrite !elem_of_cons in Ha. destruct Ha as [->|[->|Ha]]; [..|by apply elem_of_nil in Ha]; unfold thin_pos; cbn [vx vy vz]; lra.
Qed.
Lemma thin_grid s : grid_state zero3 half3 thin3 1 s -> wGrid s = (V3 4 3 3)%Z.
Proof.
  intros G. destruct G as [_ Ax Ay Az _ _ _ _ _]. cbn [vx vy vz] in *.
  pose proof (across_axis _ _ _ _ _ _ Ax) as Ex. pose proof (across_axis _ _ _ _ _ _ Ay) as Ey. pose proof (across_axis _ _ _ _ _ _ Az) as Ez.
  assert (cells_across 0 (1 / 2) (1 / 4) 1 = 2%Z) as E2 by (unfold cells_across; apply Int_part_eq; simpl; lra).
  assert (cells_across 0 (1 / 2) (1 / 2) 1 = 1%Z) as E1 by (unfold cells_across; apply Int_part_eq; simpl; lra).
  rewrite E2 in Ex. rewrite E1 in Ey, Ez. destruct (wGrid s) as [x y z]. cbn [vx vy vz] in *. f_equal; lia.
Qed.
Lemma thin_off s : grid_state zero3 half3 thin3 1 s -> wOff s = [(0, 0); (-13, -1); (1, 13)]%Z.
Proof.
  intros G. pose proof (gs_off _ _ _ _ _ G) as H. rewrite (thin_grid s G) in H. unfold dd_offsets in H. rewrite dd_items_cube in H.
  assert (map (fun t => (grid_rank (V3 4 3 3)%Z t, inside (qvec s thin3) t)) (cube 1) = map (fun t => (grid_rank (V3 4 3 3)%Z t, true)) (cube 1)) as E.
  { apply map_ext_in. intros t Ht%elem_of_list_In%elem_of_cube. by rewrite inside_one. }
  rewrite E in H. clear E. destruct s. vm_compute in H. injection H as H. by symmetry.
Qed.
Lemma thin_tags s : built_state zero3 half3 thin3 1 thin_pos [0; 1]%nat s -> wTags s = [(0%nat, 13); (1%nat, 22)]%Z.
Proof.
  intros B. pose proof (bs_grid _ _ _ _ _ _ _ B) as G.
  assert (forall a, (a < 2)%nat -> dd_index s (thin_pos a) = match a with 0%nat => 13 | _ => 22 end%Z) as HI.
  { intros a Ha. assert (in_region zero3 half3 (thin_pos a)) as Hr by (unfold in_region, thin_pos; destruct a as [|[|a]]; [| |lia]; cbn [vx vy vz]; lra).
    pose proof (region_outer _ _ _ _ _ G _ Hr) as Ho. rewrite dd_index_in by done. rewrite (ccoords_cell _ _ _ _ _ _ G Ho), (thin_grid s G).
    unfold cell_at, cell_along, vadd3. cbn [vx vy vz].
    assert (cells_across 0 (1 / 2) (1 / 4) 1 = 2%Z) as -> by (unfold cells_across; apply Int_part_eq; simpl; lra).
    assert (cells_across 0 (1 / 2) (1 / 2) 1 = 1%Z) as -> by (unfold cells_across; apply Int_part_eq; simpl; lra).
    destruct a as [|[|a]]; [| |lia]; unfold thin_pos; cbn [vx vy vz].
    - rewrite !(Int_part_eq _ 0) by (simpl; lra). done.
    - rewrite (Int_part_eq ((3 / 10 - 0) / ((1 / 2 - 0) / 2)) 1) by (simpl; lra). rewrite !(Int_part_eq ((1 / 4 - 0) / ((1 / 2 - 0) / 1)) 0) by (simpl; lra). done. }
  rewrite (bs_tags _ _ _ _ _ _ _ B). unfold tagged. cbn [map]. rewrite (HI 0%nat), (HI 1%nat) by lia. done.
Qed.
(** C31 is false without reverse communication if the region is one cutoff wide along z: a row of three cells has ghosts at
    both ends, so Cell::getNeighbors takes a strip from the first to the last ghost cell to contain only ghosts, although it passes through
    local cells.  Two local atoms in adjacent cells are listed in both orders. *)
Theorem nbr_thin_refuted : wide_enough zero3 half3 (scaled 1 (oLen thin)) 1 /\ holding 2 zero3 half3 [0; 1]%nat [] thin_pos /\
  exists s p', buildCellList 2 zero3 half3 (scaled 1 (oLen thin)) 1 [0; 1]%nat [] thin_pos (dcl_new 0) = Ok s /\
    buildPairList 2 s false 1 (fun a => genToCart thin (thin_pos a)) (fun _ _ => false) dpl_new = Ok p' /\ visits p' [(0, 1); (1, 0)]%nat.
Proof.
  rewrite thin_cut. split; [unfold wide_enough; cbn [vx vy vz]; split; [lia|lra]|]. split; [apply thin_holding|].
  pose proof (buildCellList_spec 2 zero3 half3 thin3 1 [0; 1]%nat [] thin_pos (dcl_new 0)) as H. cbn [vx vy vz] in H.
  specialize (H ltac:(lra) (acl_inv _ (acl_new 0)) ltac:(simpl; lia)).
  destruct (buildCellList _ _ _ _ _ _ _ _ _) as [s| |] eqn:EB; [|exfalso; apply H; unfold region_ok; cbn [vx vy vz]; split; [lia|lra]|done].
  destruct H as [B _]. change ([0; 1]%nat ++ []) with [0; 1]%nat in B. pose proof (bs_grid _ _ _ _ _ _ _ B) as G.
  set (r := fun a => genToCart thin (thin_pos a)). exists s.
  pose proof (thin_tags s B) as ET. pose proof (bs_cells _ _ _ _ _ _ _ B) as EC. pose proof (bs_fill _ _ _ _ _ _ _ B) as EF.
  assert (grid_size (wGrid s) = 36%Z) as EN by (rewrite (thin_grid s G); done). rewrite (thin_grid s G) in EC. rewrite EN in EF. change (grid_size (V3 4 3 3)%Z) with 36%Z in EC.
  assert (forall b e nb, (0 <= b)%Z -> (b <= e < 36)%Z -> (length nb <= 2)%nat -> nb_range s b e nb = Ok (nb ++ flat_map (inC (wTags s)) (seqZ b (e - b + 1)))) as HR.
  { intros b e nb Hb He Hnb. rewrite (nb_range_spec 36 (gflag (V3 4 3 3)%Z 1) s (wTags s) b e nb EC EF Hb He).
    - rewrite decide_True; [done|]. unfold MaxNeighborAtom.
      assert (length (flat_map (inC (wTags s)) (seqZ b (e - b + 1))) <= 2)%nat; [|lia].
      assert (NoDup (flat_map (inC (wTags s)) (seqZ b (e - b + 1)))) as HN.
      { pose proof (T_NoDup _ _ _ _ _ _ _ B (ho_nodup _ _ _ _ _ _ thin_holding)) as HT. apply NoDup_flat_map; [apply NoDup_seqZ|intros; by apply NoDup_inC|].
        intros x y z _ _ Hx%elem_of_inC Hy%elem_of_inC. by eapply tag_unique. }
      apply (submseteq_length _ [0; 1]%nat). apply NoDup_submseteq; [done|]. intros a Ha. apply elem_of_flat_map in Ha as (c & _ & Ha%elem_of_inC). rewrite ET in Ha.
      rewrite !elem_of_cons in Ha. destruct Ha as [[= -> _]|[[= -> _]|Ha]]; [left|right; left|by apply elem_of_nil in Ha].
    - unfold MaxNeighborAtom. lia. }
  assert (forall c : Z, (0 <= c < 36)%Z -> zget (wCells s) c = Ok (DCell (firstC (wTags s) c) (length (inC (wTags s) c)) (length (inC (wTags s) c)) (gflag (V3 4 3 3)%Z 1 c))) as HZ.
  { intros c Hc. apply (zget_cell s 36 (gflag (V3 4 3 3)%Z 1) (wTags s) EC c Hc). }
  assert (forall f c, (0 <= c < 36)%Z -> gflag (V3 4 3 3)%Z 1 c = true -> forall d, to_ghost (S f) s d c = Ok c) as HG.
  { intros f c Hc Hg d. cbn [to_ghost]. rewrite HZ by done. cbn [obind dcGhost]. by rewrite Hg. }
  assert (getNeighbors s false 13 = Ok [0; 1]%nat) as N13.
  { unfold getNeighbors. rewrite (thin_off s G). cbn [foldM fst snd].
    rewrite decide_True by lia. change (13 + 0)%Z with 13%Z. rewrite HR by (simpl; lia). rewrite ET. change ([] ++ flat_map (inC [(0%nat, 13%Z); (1%nat, 22%Z)]) (seqZ 13 (13 - 13 + 1))) with [0%nat]. cbn [obind].
    change (13 + -13)%Z with 0%Z. rewrite decide_False by lia. change (13 + -1)%Z with 12%Z. rewrite (HZ 0%Z), (HZ 12%Z) by lia. cbn [obind dcGhost].
    assert (gflag (V3 4 3 3)%Z 1 0 = true) as G0 by done. assert (gflag (V3 4 3 3)%Z 1 12 = true) as G12 by done. rewrite G0, G12. cbn [orb].
    rewrite !HG by (lia || done). cbn [obind]. rewrite HR by (simpl; lia). rewrite ET. change ([0%nat] ++ flat_map (inC [(0%nat, 13%Z); (1%nat, 22%Z)]) (seqZ 0 (12 - 0 + 1))) with [0%nat]. cbn [obind].
    change (13 + 1)%Z with 14%Z. rewrite decide_True by lia. change (13 + 13)%Z with 26%Z. rewrite HR by (simpl; lia). rewrite ET. done. }
  assert (getNeighbors s false 22 = Ok [1; 0]%nat) as N22.
  { unfold getNeighbors. rewrite (thin_off s G). cbn [foldM fst snd].
    rewrite decide_True by lia. change (22 + 0)%Z with 22%Z. rewrite HR by (simpl; lia). rewrite ET. change ([] ++ flat_map (inC [(0%nat, 13%Z); (1%nat, 22%Z)]) (seqZ 22 (22 - 22 + 1))) with [1%nat]. cbn [obind].
    change (22 + -13)%Z with 9%Z. rewrite decide_False by lia. change (22 + -1)%Z with 21%Z. rewrite (HZ 9%Z), (HZ 21%Z) by lia. cbn [obind dcGhost].
    assert (gflag (V3 4 3 3)%Z 1 9 = true) as G0 by done. assert (gflag (V3 4 3 3)%Z 1 21 = true) as G12 by done. rewrite G0, G12. cbn [orb].
    rewrite !HG by (lia || done). cbn [obind]. rewrite HR by (simpl; lia). rewrite ET. change ([1%nat] ++ flat_map (inC [(0%nat, 13%Z); (1%nat, 22%Z)]) (seqZ 9 (21 - 9 + 1))) with [1%nat; 0%nat]. cbn [obind].
    change (22 + 1)%Z with 23%Z. rewrite decide_True by lia. change (22 + 13)%Z with 35%Z. rewrite HR by (simpl; lia). rewrite ET. done. }
  assert (forall a b, (a = 0 /\ b = 1 \/ a = 1 /\ b = 0)%nat -> (if Rlt_dec (normSq (vsub (r b) (r a))) (1 * 1) then true else false) = true) as HW.
  { intros a b Hab. destruct (Rlt_dec _ _) as [|Hn]; [done|]. exfalso. apply Hn. unfold r, genToCart. rewrite thin_len. unfold normSq, vdot, vsub.
    destruct Hab as [[-> ->]|[-> ->]]; unfold thin_pos; cbn [vx vy vz]; lra. }
  assert (dd_primary s false 1 r (fun _ _ => false) = Ok [(0, [1]); (1, [0])]%nat) as EP.
  { unfold dd_primary. rewrite (list_locals _ _ _ _ _ _ _ B), (thin_grid s G). change (dd_locals (V3 4 3 3)%Z 1) with [13%Z; 22%Z]. cbn [foldM].
    rewrite (HZ 13%Z) by lia. cbn [obind dcN]. rewrite ET. change (length (inC [(0%nat, 13%Z); (1%nat, 22%Z)] 13)) with 1%nat. rewrite decide_False by lia.
    rewrite N13. cbn [obind seq foldM]. change (aget [0%nat; 1%nat] 0) with (Ok 0%nat). cbn [obind drop app List.filter]. rewrite HW by lia. cbn [andb negb obind].
    rewrite (HZ 22%Z) by lia. cbn [obind dcN]. rewrite ET. change (length (inC [(0%nat, 13%Z); (1%nat, 22%Z)] 22)) with 1%nat. rewrite decide_False by lia.
    rewrite N22. cbn [obind seq foldM]. change (aget [1%nat; 0%nat] 0) with (Ok 1%nat). cbn [obind drop app List.filter]. rewrite HW by lia. done. }
  unfold buildPairList. rewrite bool_decide_true by lia. cbn [check obind]. rewrite (bs_built _ _ _ _ _ _ _ B). cbn [check obind vCap2 dpl_new]. rewrite decide_True by done.
  unfold countPairs. rewrite (bs_built _ _ _ _ _ _ _ B). cbn [check obind]. rewrite EP. cbn [obind].
  change (3 * sum_list (map (fun x : nat * list nat => length x.2) [(0, [1]); (1, [0])]%nat) / 2)%nat with 3%nat.
  set (q := DPL _ _ _ _ 3). pose proof (dpl_build_spec s false 1 r (fun _ _ => false) q _ (bs_built _ _ _ _ _ _ _ B) ltac:(simpl; lia) ltac:(simpl; lia) EP) as (p' & E & E1 & E2 & E3 & _).
  exists p'. split; [done|]. split; [done|]. split; [done|]. intros it fuel Hend Hf.
  eapply (loop_all (nonempty [(0, [1]); (1, [0])]%nat) p' it fuel); [apply nonempty_Forall|done|done|done|done|done].
Qed.
