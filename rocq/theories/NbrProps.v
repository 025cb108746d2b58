(** Properties of the neighbour search of the parallel program. *)
From Verif Require Import Base Vec3 BoxSpec OrthoModel OrthoSpec OrthoProofs MonoModel MonoSpec MonoProofs DomainModel DomainSpec DomainProofs SpeciesModel SpeciesProofs
  NbrModel NbrSpec NbrOffsets NbrCells NbrGet NbrSearch NbrPairs NbrIter NbrProofs.
From Coq Require Import Reals Lra.
Local Open Scope R_scope.

(** Building the cell list succeeds exactly if every width of the region is at least a cutoff and 1 <= nCellCut <= 4, whatever was
    built before; there is never undefined behaviour. *)
Theorem cell_list_build_defined : forall cap lower upper cutoffs n locals ghosts g s, a_cell_list s ->
  0 < vx cutoffs /\ 0 < vy cutoffs /\ 0 < vz cutoffs -> (length locals + length ghosts <= cap)%nat ->
  match buildCellList cap lower upper cutoffs n locals ghosts g s with
  | Ok _ => wide_enough lower upper cutoffs n
  | Throw => ~ wide_enough lower upper cutoffs n
  | UB => False
  end.
Proof.
  intros cap lower upper cutoffs n locals ghosts g s Hs HC Hcap.
  pose proof (buildCellList_spec cap lower upper cutoffs n locals ghosts g s HC (acl_inv s Hs) Hcap) as H.
  destruct (buildCellList _ _ _ _ _ _ _ _ _) as [s'| |]; [|exact H|done]. destruct H as [B _].
  destruct (bs_grid _ _ _ _ _ _ _ B) as [Hn [] [] [] _ _ _ _ _]. done.
Qed.

(** C31, reverse communication on, orthorhombic box: every pair of local atoms is listed exactly once, and a pair of a local
    atom and a ghost if and only if the ghost's cell comes after the local atom's. *)
Theorem nbr_reverse_once : forall b cutoff cap capA lower upper n locals ghosts g masked s s' p p', a_box b -> 0 < cutoff -> a_cell_list s ->
  holding cap lower upper locals ghosts g -> sym_mask masked (locals ++ ghosts) ->
  buildCellList cap lower upper (scaled cutoff (oLen b)) n locals ghosts g s = Ok s' ->
  buildPairList capA s' true cutoff (fun a => genToCart b (g a)) masked p = Ok p' ->
  exists l, visits p' l /\ counted_once true locals ghosts (interacts cutoff (fun a => genToCart b (g a)) masked)
    (fun a c => lex_lt (cell_at lower upper (scaled cutoff (oLen b)) n (g a)) (cell_at lower upper (scaled cutoff (oLen b)) n (g c))) l.
Proof.
  intros b cutoff cap capA lower upper n locals ghosts g masked s s' p p' Hb Hc Hs Hh Hm E E'.
  eapply generic_once; [by apply scaled_pos, ortho_len_pos|done|done|by apply metric_ortho|done|by left|done|done].
Qed.
(** C31, reverse communication off, orthorhombic box: every pair of local atoms and every pair of a local atom and a ghost is
    listed exactly once, if the region is at least two cutoffs wide along z.  Missing: regions between one and two cutoffs wide along z, where
    it is false (nbr_thin_refuted). *)
Theorem nbr_once_partial : forall b cutoff cap capA lower upper n locals ghosts g masked s s' p p', a_box b -> 0 < cutoff -> a_cell_list s ->
  holding cap lower upper locals ghosts g -> sym_mask masked (locals ++ ghosts) -> 2 * (cutoff / vz (oLen b)) <= vz upper - vz lower ->
  buildCellList cap lower upper (scaled cutoff (oLen b)) n locals ghosts g s = Ok s' ->
  buildPairList capA s' false cutoff (fun a => genToCart b (g a)) masked p = Ok p' ->
  exists l, visits p' l /\ counted_once false locals ghosts (interacts cutoff (fun a => genToCart b (g a)) masked) (fun _ _ => True) l.
Proof.
  intros b cutoff cap capA lower upper n locals ghosts g masked s s' p p' Hb Hc Hs Hh Hm Hw E E'.
  destruct (generic_once cap capA lower upper (scaled cutoff (oLen b)) n locals ghosts g (fun a => genToCart b (g a)) s s' false cutoff masked p) with (p' := p') as (l & Hv & [C1 C2 C3 C4]);
    try done; [by apply scaled_pos, ortho_len_pos|by apply metric_ortho|by right|].
  exists l. split; [done|]. constructor; try done. intros a c Ha Hg Hn. rewrite C4 by done. intuition.
Qed.
(** C31 for monoclinic boxes, with one cell per cutoff.  Missing: more cells per cutoff, where pairs are lost
    (nbr_mono_lost_refuted), and thin regions without reverse communication. *)
Theorem nbr_mono_once_partial : forall b cutoff cap capA lower upper locals ghosts g masked rev s s' p p', a_mbox b -> 0 < cutoff -> a_cell_list s ->
  holding cap lower upper locals ghosts g -> sym_mask masked (locals ++ ghosts) -> rev = true \/ 2 * (cutoff / vz (mLengths b)) <= vz upper - vz lower ->
  buildCellList cap lower upper (scaled cutoff (mLengths b)) 1 locals ghosts g s = Ok s' ->
  buildPairList capA s' rev cutoff (fun a => mono_genToCart b (g a)) masked p = Ok p' ->
  exists l, visits p' l /\ counted_once rev locals ghosts (interacts cutoff (fun a => mono_genToCart b (g a)) masked)
    (fun a c => lex_lt (cell_at lower upper (scaled cutoff (mLengths b)) 1 (g a)) (cell_at lower upper (scaled cutoff (mLengths b)) 1 (g c))) l.
Proof.
  intros b cutoff cap capA lower upper locals ghosts g masked rev s s' p p' Hb Hc Hs Hh Hm Hw E E'.
  eapply generic_once; [by apply scaled_pos, mono_len_pos|done|done|by apply metric_mono|done|done|done|done].
Qed.

(** ** Two processors with reverse communication *)
Lemma along_shift lo up lo' up' c n x x' M : up - lo = up' - lo' -> 0 < up - lo -> (0 < cells_across lo up c n)%Z -> x - lo = x' - lo' + IZR M * (up - lo) ->
  (cell_along lo up c n x = cell_along lo' up' c n x' + M * cells_across lo up c n)%Z.
Proof.
  intros Ew Hw Hm Ex. unfold cell_along, cells_across in *. rewrite <- Ew. set (m := Int_part ((up - lo) * IZR n / c)) in *.
  assert (0 < IZR m) as Hm' by (by apply IZR_lt).
  assert ((x - lo) / ((up - lo) / IZR m) = (x' - lo') / ((up - lo) / IZR m) + IZR (M * m)) as -> by (rewrite Ex, mult_IZR; field; lra).
  pose proof (Int_part_spec ((x' - lo') / ((up - lo) / IZR m))). apply Int_part_eq. rewrite plus_IZR. lra.
Qed.
Lemma along_owned lo up c n x : 0 < up - lo -> (0 < cells_across lo up c n)%Z -> lo <= x < up <-> (0 <= cell_along lo up c n x < cells_across lo up c n)%Z.
Proof.
  intros Hw Hm. unfold cell_along. set (m := cells_across lo up c n) in *. assert (0 < IZR m) as Hm' by (by apply IZR_lt).
  assert (0 < (up - lo) / IZR m) as Hl by (by apply Rdiv_lt_0_compat). set (len := (up - lo) / IZR m) in *.
  assert (up - lo = IZR m * len) as E by (unfold len; field; lra). pose proof (Int_part_spec ((x - lo) / len)) as HI. set (k := Int_part ((x - lo) / len)) in *.
  assert ((x - lo) / len * len = x - lo) as Ex by (field; lra). split.
  - intros H. split.
    + assert (-1 < IZR k) as H1 by nra. apply lt_IZR in H1. lia.
    + apply lt_IZR. nra.
  - intros [H1 H2]. apply IZR_le in H1. assert (k + 1 <= m)%Z as H3 by lia. apply IZR_le in H3. rewrite plus_IZR in H3. split; nra.
Qed.
(** Atom a of one processor and atom b of another, of the same size; the first holds a ghost b' of b, the second a ghost a' of a, with the
    same separation, displaced by whole domains.  Then exactly one of the two processors lists the pair. *)
Theorem nbr_reverse_two_processors : forall lower upper lower' upper' cutoffs n locals ghosts locals' ghosts' g g' near near' l l' a b' a' b (M : vec3 Z),
  wide_enough lower upper cutoffs n -> 0 < vx cutoffs /\ 0 < vy cutoffs /\ 0 < vz cutoffs -> vsub upper lower = vsub upper' lower' ->
  (forall x, x ∈ locals -> owned lower upper (g x)) -> (forall x, x ∈ ghosts -> ~ owned lower upper (g x)) ->
  counted_once true locals ghosts near (fun x y => lex_lt (cell_at lower upper cutoffs n (g x)) (cell_at lower upper cutoffs n (g y))) l ->
  counted_once true locals' ghosts' near' (fun x y => lex_lt (cell_at lower' upper' cutoffs n (g' x)) (cell_at lower' upper' cutoffs n (g' y))) l' ->
  a ∈ locals -> b' ∈ ghosts -> b ∈ locals' -> a' ∈ ghosts' -> near a b' -> near' b a' ->
  vsub (g a) lower = vadd (vsub (g' a') lower') (V3 (IZR (vx M) * (vx upper - vx lower)) (IZR (vy M) * (vy upper - vy lower)) (IZR (vz M) * (vz upper - vz lower))) ->
  vsub (g b') lower = vadd (vsub (g' b) lower') (V3 (IZR (vx M) * (vx upper - vx lower)) (IZR (vy M) * (vy upper - vy lower)) (IZR (vz M) * (vz upper - vz lower))) ->
  ((a, b') ∈ l /\ (b, a') ∉ l') \/ ((b, a') ∈ l' /\ (a, b') ∉ l).
Proof.
  intros lower upper lower' upper' cutoffs n locals ghosts locals' ghosts' g g' near near' l l' a b' a' b M (Hn & Wx & Wy & Wz) (Cx & Cy & Cz) Ew Hloc Hgho C C' Ha Hb' Hb Ha' N N' Ea Eb.
  rewrite (co_ghost _ _ _ _ _ _ C a b' Ha Hb' N), (co_ghost _ _ _ _ _ _ C' b a' Hb Ha' N').
  unfold vsub, vadd in Ew, Ea, Eb. cbn [vx vy vz] in Ew, Ea, Eb. injection Ew as Ex Ey Ez. injection Ea as Ax Ay Az. injection Eb as Bx By Bz.
  assert (forall lo up c, 0 < c -> c <= up - lo -> (0 < cells_across lo up c n)%Z) as HM.
  { intros lo up c Hc Hle. unfold cells_across. assert (1 <= IZR n) by (apply IZR_le; lia). pose proof (Int_part_spec ((up - lo) * IZR n / c)) as HI.
    assert (1 <= (up - lo) * IZR n / c). { apply (Rmult_le_reg_r c); [done|]. assert ((up - lo) * IZR n / c * c = (up - lo) * IZR n) as -> by (field; lra). nra. }
    assert (0 < IZR (Int_part ((up - lo) * IZR n / c))) as H1 by lra. by apply lt_IZR in H1. }
  pose proof (HM _ _ _ Cx Wx) as Mx. pose proof (HM _ _ _ Cy Wy) as My. pose proof (HM _ _ _ Cz Wz) as Mz.
  pose proof (along_shift _ _ _ _ (vx cutoffs) n _ _ _ Ex ltac:(lra) Mx Ax). pose proof (along_shift _ _ _ _ (vx cutoffs) n _ _ _ Ex ltac:(lra) Mx Bx).
  pose proof (along_shift _ _ _ _ (vy cutoffs) n _ _ _ Ey ltac:(lra) My Ay). pose proof (along_shift _ _ _ _ (vy cutoffs) n _ _ _ Ey ltac:(lra) My By).
  pose proof (along_shift _ _ _ _ (vz cutoffs) n _ _ _ Ez ltac:(lra) Mz Az). pose proof (along_shift _ _ _ _ (vz cutoffs) n _ _ _ Ez ltac:(lra) Mz Bz).
  assert (cell_at lower upper cutoffs n (g a) <> cell_at lower upper cutoffs n (g b')) as Hne.
  { intros E. apply (Hgho b' Hb'). pose proof (Hloc a Ha) as (Ox & Oy & Oz). unfold cell_at in E. injection E as E0 E1 E2.
    apply (along_owned _ _ (vx cutoffs) n) in Ox; [|lra|done]. apply (along_owned _ _ (vy cutoffs) n) in Oy; [|lra|done]. apply (along_owned _ _ (vz cutoffs) n) in Oz; [|lra|done].
    split; [|split]; [apply (along_owned _ _ (vx cutoffs) n)|apply (along_owned _ _ (vy cutoffs) n)|apply (along_owned _ _ (vz cutoffs) n)]; first [lra|done|congruence]. }
  unfold cell_at in Hne. unfold lex_lt, cell_at. cbn [vx vy vz].
  set (ax := cell_along (vx lower) _ _ _ (vx (g a))) in *. set (ay := cell_along (vy lower) _ _ _ (vy (g a))) in *. set (az := cell_along (vz lower) _ _ _ (vz (g a))) in *.
  set (bx := cell_along (vx lower) _ _ _ (vx (g b'))) in *. set (b_y := cell_along (vy lower) _ _ _ (vy (g b'))) in *. set (bz := cell_along (vz lower) _ _ _ (vz (g b'))) in *.
  assert (ax <> bx \/ ay <> b_y \/ az <> bz) as Hd.
  { destruct (decide (ax = bx)) as [->|]; [|tauto]. destruct (decide (ay = b_y)) as [->|]; [|tauto]. destruct (decide (az = bz)) as [->|]; [|tauto]. done. }
  assert (true = false <-> False) as Ht by done. rewrite Ht. lia.
Qed.

(** ** Offsets *)
Lemma offsets_reach lower upper cutoffs n s : grid_state lower upper cutoffs n s ->
  NoDup (flat_map expand (wOff s)) /\ (forall o, in_strips (wOff s) o <-> exists t, in_cube n t /\ inside (qvec s cutoffs) t = true /\ o = grid_rank (wGrid s) t).
Proof.
  intros G. destruct (nbr_offsets lower upper cutoffs n s G) as [_ E]. pose proof (gs_n _ _ _ _ _ G) as Hn. pose proof (gs_dims _ _ _ _ _ G) as (Dx & Dy & Dz).
  split; [rewrite E; by apply (reach_NoDup lower upper cutoffs n s)|].
  intros o. assert (in_strips (wOff s) o <-> o ∈ flat_map expand (wOff s)) as ->.
  { unfold in_strips. rewrite elem_of_flat_map. unfold expand. setoid_rewrite elem_of_seqZ. split; intros (st & H & ?); exists st; (split; [done|lia]). }
  rewrite E, elem_of_cons, elem_of_reach. split.
  - intros [->|(t & Ht & Hi & _ & ->)]; [|eauto]. exists (V3 0 0 0)%Z. split; [unfold in_cube; simpl; lia|]. split.
    + unfold inside, dd_e. cbn [vx vy vz]. rewrite !decide_True by done. destruct (Rle_dec _ 1); [done|]. exfalso. lra.
    + unfold grid_rank. cbn [vx vy vz]. lia.
  - intros (t & Ht & Hi & ->). destruct (vec3Z_eq_dec t (V3 0 0 0)%Z) as [->|Hne]; [left; unfold grid_rank; cbn [vx vy vz]; lia|right; eauto].
Qed.
Lemma index_outer s p : (0 <= dd_index s p)%Z -> in_outer s p.
Proof. intros H. destruct (in_outer_dec s p) as [|Ho]; [done|]. rewrite dd_index_out in H by done. lia. Qed.
Lemma cover_generic lower upper cutoffs n s s' x y : a_cell_list s -> 0 < vx cutoffs /\ 0 < vy cutoffs /\ 0 < vz cutoffs -> dd_makeGrid lower upper cutoffs n s = Ok s' ->
  (0 <= dd_index s' x)%Z -> (0 <= dd_index s' y)%Z ->
  (Rabs (vx y - vx x) < vx cutoffs /\ Rabs (vy y - vy x) < vy cutoffs /\ Rabs (vz y - vz x) < vz cutoffs) -> cutdist cutoffs x y < 1 \/ n = 1%Z ->
  in_strips (wOff s') (dd_index s' y - dd_index s' x).
Proof.
  intros Hs HC E Hx%index_outer Hy%index_outer (Dx & Dy & Dz) Hd.
  pose proof (makeGrid_spec lower upper cutoffs n s HC (acl_inv s Hs)) as G. rewrite E in G. destruct G as [G _].
  rewrite !dd_index_in by done. apply (offsets_reach _ _ _ _ _ G).
  assert (exists t, in_cube n t /\ inside (qvec s' cutoffs) t = true /\ ccoords s' y = vadd3 (ccoords s' x) t) as (t & Ht & Hi & Et).
  { destruct Hd as [Hd|E1]; [by eapply near_offset|].
    set (t := V3 (vx (ccoords s' y) - vx (ccoords s' x))%Z (vy (ccoords s' y) - vy (ccoords s' x))%Z (vz (ccoords s' y) - vz (ccoords s' x))%Z).
    assert (in_cube n t) as HC'.
    { destruct G as [Hn Ax Ay Az El Eu _ _ _]. unfold in_outer in *. rewrite El, Eu in Hx, Hy. cbn [vx vy vz] in *.
      destruct (cell_diff _ _ _ _ _ _ (vx x) (vx y) Ax ltac:(lra) ltac:(lra)) as [_ Bx].
      destruct (cell_diff _ _ _ _ _ _ (vy x) (vy y) Ay ltac:(lra) ltac:(lra)) as [_ By].
      destruct (cell_diff _ _ _ _ _ _ (vz x) (vz y) Az ltac:(lra) ltac:(lra)) as [_ Bz].
      cbv zeta in *. unfold t, in_cube, ccoords. rewrite El. cbn [vx vy vz]. auto. }
    exists t. split; [done|]. split; [apply inside_one; by rewrite <- E1|]. unfold t, vadd3. cbn [vx vy vz]. destruct (ccoords s' y) as [u v w]; cbn [vx vy vz]. f_equal; lia. }
  exists t. split; [done|]. split; [done|]. rewrite Et, rank_add. lia.
Qed.
(** C32, orthorhombic boxes, any number of cells per cutoff: two positions in the grid closer than the cutoff lie in cells whose
    indices differ by an offset in the list.  No offset is in the list twice. *)
Theorem offsets_cover_cutoff : forall b cutoff lower upper n s s', a_box b -> 0 < cutoff -> a_cell_list s ->
  dd_makeGrid lower upper (scaled cutoff (oLen b)) n s = Ok s' ->
  NoDup (flat_map (fun st => seqZ st.1 (st.2 - st.1 + 1)) (wOff s')) /\
  forall x y, (0 <= dd_index s' x)%Z -> (0 <= dd_index s' y)%Z -> within cutoff (genToCart b x) (genToCart b y) -> in_strips (wOff s') (dd_index s' y - dd_index s' x).
Proof.
  intros b cutoff lower upper n s s' Hb Hc Hs E. pose proof (scaled_pos cutoff _ Hc (ortho_len_pos b Hb)) as HC. split.
  - pose proof (makeGrid_spec lower upper _ n s HC (acl_inv s Hs)) as G. rewrite E in G. destruct G as [G _]. apply (offsets_reach _ _ _ _ _ G).
  - intros x y Hx Hy Hw.
    destruct (metric_ortho b cutoff n (fun i => match i with O => x | _ => y end) Hb Hc 0%nat 1%nat Hw) as [D1 D2]. by eapply cover_generic.
Qed.
(** C32, monoclinic boxes with one cell per cutoff.  Missing: more cells per cutoff, where it is false
    (offsets_mono_refuted). *)
Theorem offsets_cover_mono_partial : forall b cutoff lower upper s s' x y, a_mbox b -> 0 < cutoff -> a_cell_list s ->
  dd_makeGrid lower upper (scaled cutoff (mLengths b)) 1 s = Ok s' -> (0 <= dd_index s' x)%Z -> (0 <= dd_index s' y)%Z ->
  within cutoff (mono_genToCart b x) (mono_genToCart b y) -> in_strips (wOff s') (dd_index s' y - dd_index s' x).
Proof.
  intros b cutoff lower upper s s' x y Hb Hc Hs E Hx Hy Hw. pose proof (scaled_pos cutoff _ Hc (mono_len_pos b Hb)) as HC.
  destruct (metric_mono b cutoff (fun i => match i with O => x | _ => y end) Hb Hc 0%nat 1%nat Hw) as [D1 D2]. by eapply cover_generic.
Qed.
