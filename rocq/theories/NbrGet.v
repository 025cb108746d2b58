(** Lemmas about the grid of DdMd::CellList and about Cell::getNeighbors. *)
From Verif Require Import Base Vec3 BoxSpec DomainModel DomainSpec DomainProofs SpeciesModel SpeciesProofs NbrModel NbrOffsets NbrCells.
From Coq Require Import Reals Lra.
Local Open Scope Z_scope.

Definition local_pos (d : vec3 Z) (n : Z) (p : vec3 Z) : Prop :=
  n <= vx p < vx d - n /\ n <= vy p < vy d - n /\ n <= vz p < vz d - n.
Global Instance local_pos_dec d n p : Decision (local_pos d n p).
Proof. unfold local_pos. apply _. Defined.
Definition gflag (d : vec3 Z) (n : Z) (c : Z) : bool := negb (bool_decide (local_pos d n (grid_position d c))).
Definition vadd3 (p t : vec3 Z) : vec3 Z := V3 (vx p + vx t) (vy p + vy t) (vz p + vz t).
Lemma rank_add d p t : grid_rank d (vadd3 p t) = grid_rank d p + grid_rank d t.
Proof. unfold grid_rank, vadd3; cbn [vx vy vz]. lia. Qed.
Lemma local_in_grid d n p : 0 <= n -> local_pos d n p -> in_grid d p.
Proof. unfold local_pos, in_grid. lia. Qed.
Lemma near_in_grid d n p t : local_pos d n p -> in_cube n t -> in_grid d (vadd3 p t).
Proof. unfold local_pos, in_cube, in_grid, vadd3; simpl. lia. Qed.

Lemma elem_of_dd_locals d n c : c ∈ dd_locals d n <-> exists p, local_pos d n p /\ c = grid_rank d p.
Proof.
  unfold dd_locals. rewrite elem_of_flat_map. split.
  - intros (i & Hi & H). apply elem_of_flat_map in H as (j & Hj & H). apply elem_of_list_fmap in H as (k & -> & Hk).
    rewrite elem_of_seqZ in Hi, Hj, Hk. eexists. split; [|done]. unfold local_pos; simpl. lia.
  - intros (p & (H0 & H1 & H2) & ->). exists (vx p). rewrite elem_of_seqZ. split; [lia|]. apply elem_of_flat_map.
    exists (vy p). rewrite elem_of_seqZ. split; [lia|]. apply elem_of_list_fmap. exists (vz p). rewrite elem_of_seqZ. split; [by destruct p|lia].
Qed.
Lemma NoDup_dd_locals d n : grid_ok d -> 0 <= n -> NoDup (dd_locals d n).
Proof.
  intros Hd Hn.
  assert (forall p p', local_pos d n p -> local_pos d n p' -> grid_rank d p = grid_rank d p' -> p = p') as Hinj.
  { intros p p' H H' E. rewrite <- (position_rank d p), <- (position_rank d p'), E; eauto using local_in_grid. }
  unfold dd_locals. apply NoDup_flat_map; [apply NoDup_seqZ| |].
  - intros i Hi%elem_of_seqZ. apply NoDup_flat_map; [apply NoDup_seqZ| |].
    + intros j Hj%elem_of_seqZ.
      assert (forall l : list Z, NoDup l -> (forall k, k ∈ l -> n <= k < vz d - n) -> NoDup (map (fun k => grid_rank d (V3 i j k)) l)) as H.
      { induction 1 as [|k l Hk Hl IH]; intros HB; simpl; [apply NoDup_nil_2|]. apply NoDup_cons. split.
        - intros (k' & E & Hk')%elem_of_list_fmap. apply Hinj in E; [injection E as ->; done| |]; unfold local_pos; simpl.
          + pose proof (HB k (elem_of_list_here _ _)). lia.
          + pose proof (HB k' (elem_of_list_further _ _ _ Hk')). lia.
        - apply IH. intros. apply HB. by right. }
      apply H; [apply NoDup_seqZ|]. intros k Hk%elem_of_seqZ. lia.
    + intros j j' z Hj%elem_of_seqZ Hj'%elem_of_seqZ (k & -> & Hk%elem_of_seqZ)%elem_of_list_fmap (k' & E & Hk'%elem_of_seqZ)%elem_of_list_fmap.
      apply Hinj in E; [by injection E| |]; unfold local_pos; simpl; lia.
  - intros i i' z Hi%elem_of_seqZ Hi'%elem_of_seqZ H H'.
    apply elem_of_flat_map in H as (j & Hj%elem_of_seqZ & (k & -> & Hk%elem_of_seqZ)%elem_of_list_fmap).
    apply elem_of_flat_map in H' as (j' & Hj'%elem_of_seqZ & (k' & E & Hk'%elem_of_seqZ)%elem_of_list_fmap).
    apply Hinj in E; [by injection E| |]; unfold local_pos; simpl; lia.
Qed.

(** ** One axis of the grid *)
Local Open Scope R_scope.
Record axis_ok (lo up c : R) (n m : Z) (len : R) : Prop := {
  ax_c : 0 < c;  ax_le : c <= up - lo;  ax_n : (1 <= n)%Z;  ax_m : (n <= m)%Z;  ax_len : len = (up - lo) / IZR m;
  ax_pos : 0 < len;  ax_cut : c <= IZR n * len;  ax_m2 : IZR m * c <= (up - lo) * IZR n < IZR m * c + c }.
Lemma dd_axis_spec lo up c n : 0 < c -> (1 <= n)%Z ->
  match dd_axis lo up c n with Ok m => axis_ok lo up c n m ((up - lo) / IZR m) | Throw => up - lo < c | UB => False end.
Proof.
  intros Hc Hn. unfold dd_axis. destruct (Rlt_dec (up - lo) 0); [lra|]. destruct (Rlt_dec (up - lo) c) as [|H]; [done|].
  apply Rnot_lt_le in H. assert (1 <= IZR n) as Hn' by (by apply IZR_le).
  set (m := Rtrunc ((up - lo) * IZR n / c)).
  assert (IZR m <= (up - lo) * IZR n / c < IZR m + 1) as Hm.
  { apply Rtrunc_spec. apply Rmult_le_pos; [nra|]. left. by apply Rinv_0_lt_compat. }
  assert (IZR m * c <= (up - lo) * IZR n < IZR m * c + c) as Hm2.
  { assert ((up - lo) * IZR n = (up - lo) * IZR n / c * c) as -> by (field; lra). nra. }
  assert (n <= m)%Z as Hnm.
  { assert (IZR n < IZR m + 1) as Hl by nra. rewrite <- plus_IZR in Hl. apply lt_IZR in Hl. lia. }
  assert (0 < IZR m) as Hm0 by (apply IZR_lt; lia).
  assert (0 < (up - lo) / IZR m) by (apply Rdiv_lt_0_compat; lra).
  constructor; try done.
  assert ((up - lo) / IZR m * IZR m = up - lo) as E by (field; lra). nra.
Qed.
Lemma dd_axis_ok lo up c n : 0 < c -> (1 <= n)%Z -> c <= up - lo -> exists m, dd_axis lo up c n = Ok m.
Proof.
  intros Hc Hn H. pose proof (dd_axis_spec lo up c n Hc Hn) as S. destruct (dd_axis lo up c n) as [m| |]; [by exists m|lra|done].
Qed.

(** Index of the cell along one axis; [low] is the outer bound. *)
Lemma trunc_cell low len x : 0 < len -> low < x -> let k := Rtrunc ((x - low) / len) in
  (0 <= k)%Z /\ low + IZR k * len <= x < low + (IZR k + 1) * len.
Proof.
  intros Hl Hx k. assert (0 <= (x - low) / len) as Hp by (apply Rlt_le, Rdiv_lt_0_compat; lra).
  pose proof (Rtrunc_spec _ Hp) as Hk. fold k in Hk.
  assert ((x - low) / len * len = x - low) as E by (field; lra).
  split.
  - assert (-1 < IZR k) as H by lra. apply lt_IZR in H. lia.
  - nra.
Qed.
Lemma cell_bounds lo up c n m len x : axis_ok lo up c n m len -> lo - IZR n * len < x < up + IZR n * len ->
  let k := Rtrunc ((x - (lo - IZR n * len)) / len) in (0 <= k < m + 2 * n)%Z /\ (lo <= x < up <-> (n <= k < m + n)%Z).
Proof.
  intros A Hx k. destruct A as [Hc Hle Hn Hm Elen Hpos Hcut Hm2].
  assert (0 < IZR m) as Hm0 by (apply IZR_lt; lia).
  assert (up - lo = IZR m * len) as E by (rewrite Elen; field; lra).
  destruct (trunc_cell (lo - IZR n * len) len x Hpos ltac:(lra)) as [Hk0 Hk]. fold k in Hk0, Hk.
  split.
  - split; [done|]. assert (IZR k < IZR m + IZR n + IZR n) as H by nra. rewrite <- !plus_IZR in H. apply lt_IZR in H. lia.
  - split.
    + intros [H1 H2]. split.
      * assert (IZR n < IZR k + 1) as H by nra. rewrite <- plus_IZR in H. apply lt_IZR in H. lia.
      * assert (IZR k < IZR m + IZR n) as H by nra. rewrite <- plus_IZR in H. by apply lt_IZR in H.
    + intros [H1 H2]. apply IZR_le in H1. assert (k + 1 <= m + n)%Z as H3 by lia. apply IZR_le in H3. rewrite !plus_IZR in H3. nra.
Qed.
Lemma cell_diff lo up c n m len x y : axis_ok lo up c n m len -> lo - IZR n * len < x -> lo - IZR n * len < y ->
  let k := Rtrunc ((x - (lo - IZR n * len)) / len) in let k' := Rtrunc ((y - (lo - IZR n * len)) / len) in
  dd_e (len / c) (k' - k) <= (y - x) / c * ((y - x) / c) /\ (Rabs (y - x) < c -> (- n <= k' - k <= n)%Z).
Proof.
  intros A Hx Hy k k'. destruct A as [Hc Hle Hn Hm Elen Hpos Hcut Hm2].
  destruct (trunc_cell (lo - IZR n * len) len x Hpos Hx) as [Hk0 Hk]. fold k in Hk0, Hk.
  destruct (trunc_cell (lo - IZR n * len) len y Hpos Hy) as [Hk0' Hk']. fold k' in Hk0', Hk'.
  assert (IZR (Z.abs (k' - k) - 1) * len <= Rabs (y - x)) as HA.
  { rewrite minus_IZR. destruct (Z.abs_spec (k' - k)) as [[? ->]|[? ->]].
    - rewrite minus_IZR. pose proof (Rle_abs (y - x)). nra.
    - rewrite opp_IZR, minus_IZR. pose proof (Rle_abs (- (y - x))). rewrite Rabs_Ropp in *. nra. }
  split.
  - unfold dd_e. destruct (decide (k' - k = 0)%Z); [apply Rle_0_sqr|]. cbv zeta.
    assert (0 <= IZR (Z.abs (k' - k) - 1)) as H0 by (apply IZR_le; lia).
    assert (len / c * IZR (Z.abs (k' - k) - 1) <= Rabs (y - x) / c) as H1.
    { unfold Rdiv. assert (0 < / c) by (by apply Rinv_0_lt_compat). nra. }
    assert (0 <= len / c * IZR (Z.abs (k' - k) - 1)) as H2.
    { apply Rmult_le_pos; [|done]. apply Rlt_le, Rdiv_lt_0_compat; done. }
    assert ((y - x) / c * ((y - x) / c) = (Rabs (y - x) / c) * (Rabs (y - x) / c)) as ->.
    { destruct (Rcase_abs (y - x)); [rewrite Rabs_left by done|rewrite Rabs_right by done]; field; lra. }
    apply Rmult_le_compat; done.
  - intros Hr. assert (Z.abs (k' - k) - 1 < n)%Z; [|lia]. apply lt_IZR. nra.
Qed.

(** ** The state of the cell list *)
Local Open Scope Z_scope.
Definition dd_cells_ok (d : vec3 Z) (n : Z) (cells : list dcell) (loc : list Z) : Prop :=
  (exists f, cells = tab (grid_size d) f /\ forall c, 0 <= c < grid_size d -> dcGhost (f c) = gflag d n c) /\ loc = dd_locals d n.
(** What every sequence of successful calls preserves. *)
Definition dcl_inv (s : dclist) : Prop := 27 <= grid_size (wGrid s) -> dd_cells_ok (wGrid s) (wCut s) (wCells s) (wList s).

Lemma set_locals_tab N f loc : (forall c, c ∈ loc -> 0 <= c < N) ->
  foldM (fun l c => let? x := zget l c in zset l c (set_ghost false x)) (tab N f) loc =
  Ok (tab N (fun c => if decide (c ∈ loc) then set_ghost false (f c) else f c)).
Proof.
  revert f. induction loc as [|c loc IH]; intros f H; simpl.
  - f_equal. 
  - rewrite zget_tab by (apply H; left). cbn [obind]. rewrite zset_tab by (apply H; left). cbn [obind].
    rewrite IH by (intros; apply H; by right). f_equal. apply tab_ext. intros x Hx.
    destruct (decide (x ∈ loc)) as [Hin|Hin]; destruct (decide (x = c)) as [->|Hne].
    + rewrite decide_True by left. done.
    + rewrite decide_True by (by right). done.
    + rewrite decide_True by left. done.
    + rewrite decide_False; [done|]. intros [?|?]%elem_of_cons; done.
Qed.

Definition qvec (s : dclist) (cutoffs : vec3 R) : vec3 R :=
  (V3 (vx (wLen s) / vx cutoffs) (vy (wLen s) / vy cutoffs) (vz (wLen s) / vz cutoffs))%R.
Record grid_state (lower upper cutoffs : vec3 R) (n : Z) (s : dclist) : Prop := GS {
  gs_n : 1 <= n <= 4;
  gs_x : axis_ok (vx lower) (vx upper) (vx cutoffs) n (vx (wGrid s) - 2 * n) (vx (wLen s));
  gs_y : axis_ok (vy lower) (vy upper) (vy cutoffs) n (vy (wGrid s) - 2 * n) (vy (wLen s));
  gs_z : axis_ok (vz lower) (vz upper) (vz cutoffs) n (vz (wGrid s) - 2 * n) (vz (wLen s));
  gs_low : wLow s = (V3 (vx lower - IZR n * vx (wLen s)) (vy lower - IZR n * vy (wLen s)) (vz lower - IZR n * vz (wLen s)))%R;
  gs_up : wUp s = (V3 (vx upper + IZR n * vx (wLen s)) (vy upper + IZR n * vy (wLen s)) (vz upper + IZR n * vz (wLen s)))%R;
  gs_cut : wCut s = n;
  gs_cells : dd_cells_ok (wGrid s) n (wCells s) (wList s);
  gs_off : dd_offsets (wGrid s) (qvec s cutoffs) n = Ok (wOff s) }.
Definition region_ok (lower upper cutoffs : vec3 R) (n : Z) : Prop :=
  1 <= n <= 4 /\ (vx cutoffs <= vx upper - vx lower /\ vy cutoffs <= vy upper - vy lower /\ vz cutoffs <= vz upper - vz lower)%R.
Lemma gs_dims lower upper cutoffs n s : grid_state lower upper cutoffs n s -> 3 * n <= vx (wGrid s) /\ 3 * n <= vy (wGrid s) /\ 3 * n <= vz (wGrid s).
Proof. intros [? [] [] [] ? ? ? ? ?]. lia. Qed.
Lemma size_27 d n : 1 <= n -> 3 * n <= vx d -> 3 * n <= vy d -> 3 * n <= vz d -> 27 <= grid_size d.
Proof. intros. unfold grid_size. assert (9 <= vx d * vy d) by nia. nia. Qed.

Lemma resize_length l k : length (dd_resize l k) = k.
Proof. unfold dd_resize. rewrite app_length, take_length, replicate_length. lia. Qed.
Lemma makeGrid_spec lower upper cutoffs n s : (0 < vx cutoffs /\ 0 < vy cutoffs /\ 0 < vz cutoffs)%R -> dcl_inv s ->
  match dd_makeGrid lower upper cutoffs n s with
  | Ok s' => grid_state lower upper cutoffs n s' /\ wTags s' = wTags s /\ wAtoms s' = wAtoms s
  | Throw => ~ region_ok lower upper cutoffs n
  | UB => False
  end.
Proof.
  intros (Cx & Cy & Cz) HI. unfold dd_makeGrid, region_ok.
  destruct (decide (n < 1)) as [|Hn1]; [lia|]. destruct (decide (4 < n)) as [|Hn4]; [lia|].
  pose proof (dd_axis_spec (vx lower) (vx upper) (vx cutoffs) n Cx ltac:(lia)) as Hx.
  pose proof (dd_axis_spec (vy lower) (vy upper) (vy cutoffs) n Cy ltac:(lia)) as Hy.
  pose proof (dd_axis_spec (vz lower) (vz upper) (vz cutoffs) n Cz ltac:(lia)) as Hz.
  destruct (dd_axis (vx lower) (vx upper) (vx cutoffs) n) as [mx| |]; cbn [obind]; [|lra|done].
  destruct (dd_axis (vy lower) (vy upper) (vy cutoffs) n) as [my| |]; cbn [obind]; [|lra|done].
  destruct (dd_axis (vz lower) (vz upper) (vz cutoffs) n) as [mz| |]; cbn [obind]; [|lra|done].
  cbv zeta. cbn [vx vy vz].
  set (len := (V3 ((vx upper - vx lower) / IZR mx) ((vy upper - vy lower) / IZR my) ((vz upper - vz lower) / IZR mz))%R).
  set (d := V3 (mx + 2 * n) (my + 2 * n) (mz + 2 * n)).
  assert (grid_ok d) as Hd by (destruct Hx, Hy, Hz; unfold grid_ok, d; simpl; lia).
  assert (27 <= grid_size d) as H27 by (destruct Hx, Hy, Hz; apply (size_27 d n); unfold d; simpl; lia).
  set (isNew := bool_decide _ || _ || _ || _ || _ || _).
  change (mx + 2 * n) with (vx d). change (my + 2 * n) with (vy d). change (mz + 2 * n) with (vz d).
  match goal with |- match obind ?e _ with Ok _ => _ | Throw => _ | UB => _ end => assert (exists cells loc, e = Ok (cells, loc) /\ dd_cells_ok d n cells loc) as (cells & loc & -> & Hcells) end.
  { destruct isNew eqn:En.
    - set (l0 := map (set_ghost true) (dd_resize (wCells s) (Z.to_nat (vx d * vy d * vz d)))).
      assert (length l0 = Z.to_nat (grid_size d)) as El0 by (unfold l0; by rewrite map_length, resize_length).
      assert (forall c, 0 <= c < grid_size d -> dcGhost (default (DCell 0 0 0 true) (l0 !! Z.to_nat c)) = true) as Hg.
      { intros c Hc. unfold l0. rewrite list_lookup_fmap. destruct (dd_resize _ _ !! _); done. }
      rewrite (list_tab (DCell 0 0 0 true) l0 (grid_size d) El0).
      rewrite set_locals_tab.
      2:{ intros c (p & Hp & ->)%elem_of_dd_locals. apply rank_range; [done|]. eapply local_in_grid; [|done]. lia. }
      cbn [obind]. rewrite decide_False.
      2:{ intros E. assert (grid_rank d (V3 n n n) ∈ dd_locals d n) as Hin.
          { apply elem_of_dd_locals. eexists. split; [|done]. destruct Hx, Hy, Hz; unfold local_pos, d; simpl; lia. }
          rewrite E in Hin. inversion Hin. }
      do 2 eexists. split; [done|]. split; [|done]. eexists. split; [done|]. intros c Hc. simpl.
      unfold gflag. destruct (decide (c ∈ dd_locals d n)) as [(p & Hp & ->)%elem_of_dd_locals|Hni].
      + rewrite position_rank; [|done|eapply local_in_grid; [|done]; lia]. rewrite bool_decide_true by done. done.
      + rewrite Hg by done. rewrite bool_decide_false; [done|]. intros Hp. apply Hni. apply elem_of_dd_locals.
        exists (grid_position d c). split; [done|]. symmetry. by apply rank_position.
    - apply orb_false_iff in En as [En Ez%negb_false_iff%bool_decide_eq_true].
      apply orb_false_iff in En as [En Ey%negb_false_iff%bool_decide_eq_true].
      apply orb_false_iff in En as [En Ex%negb_false_iff%bool_decide_eq_true].
      apply orb_false_iff in En as [En Ec%negb_false_iff%bool_decide_eq_true].
      assert (wGrid s = d) as Ed by (unfold d; clear - Ex Ey Ez; revert Ex Ey Ez; destruct (wGrid s); simpl; congruence).
      do 2 eexists. split; [done|]. rewrite <- Ed, <- Ec. apply HI. by rewrite Ed. }
  cbn [obind].
  assert (1 <= n /\ n <= 4 /\ 2 * n + 1 <= vx d /\ 2 * n + 1 <= vy d /\ 2 * n + 1 <= vz d) as (P1 & P2 & P3 & P4 & P5) by (destruct Hx, Hy, Hz; unfold d; simpl; lia).
  assert (0 <= vx len / vx cutoffs /\ 0 <= vy len / vy cutoffs /\ 0 <= vz len / vz cutoffs)%R as P6.
  { unfold len; cbn [vx vy vz]. destruct Hx, Hy, Hz. repeat split; apply Rlt_le, Rdiv_lt_0_compat; done. }
  destruct (offsets_spec d (V3 (vx len / vx cutoffs) (vy len / vy cutoffs) (vz len / vz cutoffs))%R n P1 P2 P4 P5 P6) as (off & Eoff & _).
  change (vx len) with ((vx upper - vx lower) / IZR mx)%R in Eoff. change (vy len) with ((vy upper - vy lower) / IZR my)%R in Eoff.
  change (vz len) with ((vz upper - vz lower) / IZR mz)%R in Eoff. 
  rewrite Eoff. cbn [obind]. split; [|split; done].
  constructor; cbn [wGrid wLen wLow wUp wCut wOff wCells wList len d vx vy vz].
  - lia.
  - replace (mx + 2 * n - 2 * n) with mx by lia. exact Hx.
  - replace (my + 2 * n - 2 * n) with my by lia. exact Hy.
  - replace (mz + 2 * n - 2 * n) with mz by lia. exact Hz.
  - reflexivity.
  - reflexivity.
  - reflexivity.
  - exact Hcells.
  - exact Eoff.
Qed.

(** ** Cells of positions *)
Definition ccoords (s : dclist) (p : vec3 R) : vec3 Z :=
  (V3 (Rtrunc ((vx p - vx (wLow s)) / vx (wLen s))) (Rtrunc ((vy p - vy (wLow s)) / vy (wLen s))) (Rtrunc ((vz p - vz (wLow s)) / vz (wLen s))))%R.
Definition in_outer (s : dclist) (p : vec3 R) : Prop :=
  (vx (wLow s) < vx p < vx (wUp s) /\ vy (wLow s) < vy p < vy (wUp s) /\ vz (wLow s) < vz p < vz (wUp s))%R.
Lemma dd_index_in s p : in_outer s p -> dd_index s p = grid_rank (wGrid s) (ccoords s p).
Proof.
  intros (Hx & Hy & Hz). unfold dd_index. cbn [vget].
  destruct (Rle_dec (vx p) _); [lra|]. destruct (Rge_dec (vx p) _); [lra|].
  destruct (Rle_dec (vy p) _); [lra|]. destruct (Rge_dec (vy p) _); [lra|].
  destruct (Rle_dec (vz p) _); [lra|]. destruct (Rge_dec (vz p) _); [lra|]. done.
Qed.
Lemma dd_index_out s p : ~ in_outer s p -> dd_index s p = -1.
Proof.
  intros H. unfold dd_index, in_outer in *. cbn [vget].
  destruct (Rle_dec (vx p) _); [done|]. destruct (Rge_dec (vx p) _); [done|].
  destruct (Rle_dec (vy p) _); [done|]. destruct (Rge_dec (vy p) _); [done|].
  destruct (Rle_dec (vz p) _); [done|]. destruct (Rge_dec (vz p) _); [done|]. exfalso. apply H. repeat split; lra.
Qed.
Lemma in_outer_dec s p : in_outer s p \/ ~ in_outer s p.
Proof.
  unfold in_outer. destruct (Rlt_dec (vx (wLow s)) (vx p)), (Rlt_dec (vx p) (vx (wUp s))), (Rlt_dec (vy (wLow s)) (vy p)),
    (Rlt_dec (vy p) (vy (wUp s))), (Rlt_dec (vz (wLow s)) (vz p)), (Rlt_dec (vz p) (vz (wUp s))); tauto.
Qed.
Definition in_region (lower upper p : vec3 R) : Prop :=
  (vx lower <= vx p < vx upper /\ vy lower <= vy p < vy upper /\ vz lower <= vz p < vz upper)%R.

Section geometry.
  Context (lower upper cutoffs : vec3 R) (n : Z) (s : dclist).
  Hypothesis GS : grid_state lower upper cutoffs n s.

  Lemma gs_grid_ok : grid_ok (wGrid s).
  Proof. pose proof (gs_dims _ _ _ _ _ GS). pose proof (gs_n _ _ _ _ _ GS). unfold grid_ok. lia. Qed.
  Lemma coords_in p : in_outer s p -> in_grid (wGrid s) (ccoords s p) /\ (in_region lower upper p <-> local_pos (wGrid s) n (ccoords s p)).
  Proof.
    destruct GS as [Hn Ax Ay Az El Eu _ _ _]. unfold in_outer, in_grid, in_region, local_pos, ccoords. rewrite El, Eu. cbn [vx vy vz]. intros (Hx & Hy & Hz).
    destruct (cell_bounds _ _ _ _ _ _ _ Ax Hx) as [Bx Lx]. destruct (cell_bounds _ _ _ _ _ _ _ Ay Hy) as [By Ly].
    destruct (cell_bounds _ _ _ _ _ _ _ Az Hz) as [Bz Lz]. cbv zeta in *. split; [lia|]. rewrite Lx, Ly, Lz. lia.
  Qed.
  Lemma region_outer p : in_region lower upper p -> in_outer s p.
  Proof.
    destruct GS as [Hn Ax Ay Az El Eu _ _ _]. unfold in_outer, in_region. rewrite El, Eu. cbn [vx vy vz].
    assert (1 <= IZR n)%R by (apply IZR_le; lia). destruct Ax, Ay, Az. intros (?&?&?). repeat split; nra.
  Qed.
  (** Scaled distance in units of the cutoffs. *)
  Definition cutdist (x y : vec3 R) : R :=
    ((vx y - vx x) / vx cutoffs * ((vx y - vx x) / vx cutoffs) + (vy y - vy x) / vy cutoffs * ((vy y - vy x) / vy cutoffs) +
     (vz y - vz x) / vz cutoffs * ((vz y - vz x) / vz cutoffs))%R.
  Lemma cutdist_axis x y : (cutdist x y < 1)%R -> (Rabs (vx y - vx x) < vx cutoffs /\ Rabs (vy y - vy x) < vy cutoffs /\ Rabs (vz y - vz x) < vz cutoffs)%R.
  Proof.
    destruct GS as [Hn Ax Ay Az El Eu _ _ _]. destruct Ax as [Cx _ _ _ _ _ _ _], Ay as [Cy _ _ _ _ _ _ _], Az as [Cz _ _ _ _ _ _ _].
    unfold cutdist. set (a := ((vx y - vx x) / vx cutoffs)%R). set (b := ((vy y - vy x) / vy cutoffs)%R). set (e := ((vz y - vz x) / vz cutoffs)%R). intros H.
    assert (forall u c : R, (0 < c)%R -> ((u / c) * (u / c) < 1)%R -> (Rabs u < c)%R) as HA.
    { intros u c Hc Hu. assert (Rabs (u / c) < 1)%R as H1.
      { apply Rsqr_lt_abs_0 in Hu || idtac. destruct (Rcase_abs (u / c)); [rewrite Rabs_left by done|rewrite Rabs_right by done]; nra. }
      unfold Rdiv in H1. rewrite Rabs_mult, (Rabs_right (/ c)) in H1 by (apply Rle_ge, Rlt_le, Rinv_0_lt_compat; done).
      assert (Rabs u = Rabs u * / c * c)%R as -> by (field; lra). nra. }
    repeat split; apply HA; try done; [fold a|fold b|fold e]; nra.
  Qed.
  Lemma near_outer x y : in_region lower upper x -> (cutdist x y < 1)%R -> in_outer s y.
  Proof.
    intros Hx Hd. pose proof (cutdist_axis x y Hd) as (Dx & Dy & Dz).
    destruct GS as [Hn Ax Ay Az El Eu _ _ _]. unfold in_outer, in_region in *. rewrite El, Eu. cbn [vx vy vz].
    destruct Ax, Ay, Az. destruct Hx as (?&?&?).
    apply Rabs_def2 in Dx, Dy, Dz. repeat split; lra.
  Qed.
  (** C32. *)
  Lemma near_offset x y : in_outer s x -> in_outer s y -> (cutdist x y < 1)%R ->
    exists t, in_cube n t /\ inside (qvec s cutoffs) t = true /\
      ccoords s y = vadd3 (ccoords s x) t.
  Proof.
    intros Hx Hy Hd. pose proof (cutdist_axis x y Hd) as (Dx & Dy & Dz).
    exists (V3 (vx (ccoords s y) - vx (ccoords s x)) (vy (ccoords s y) - vy (ccoords s x)) (vz (ccoords s y) - vz (ccoords s x))).
    destruct GS as [Hn Ax Ay Az El Eu _ _ _]. unfold in_outer in *. rewrite El, Eu in Hx, Hy. cbn [vx vy vz] in *.
    destruct (cell_diff _ _ _ _ _ _ (vx x) (vx y) Ax ltac:(lra) ltac:(lra)) as [Ex Bx].
    destruct (cell_diff _ _ _ _ _ _ (vy x) (vy y) Ay ltac:(lra) ltac:(lra)) as [Ey By].
    destruct (cell_diff _ _ _ _ _ _ (vz x) (vz y) Az ltac:(lra) ltac:(lra)) as [Ez Bz].
    cbv zeta in *. unfold ccoords. rewrite El. cbn [vx vy vz].
    split; [|split].
    - unfold in_cube. cbn [vx vy vz]. auto.
    - unfold inside, qvec. cbn [vx vy vz]. destruct (Rle_dec _ 1) as [|Hn']; [done|]. exfalso. apply Hn'. unfold cutdist in Hd. lra.
    - unfold vadd3. cbn [vx vy vz]. f_equal; lia.
  Qed.
End geometry.
