(** Properties C11, C12 and C13 for McMd::PairList. *)
From stdpp Require Import gmap.
From Verif Require Import Base Vec3 BoxSpec OrthoModel OrthoSpec OrthoProofs OrthoProps MonoModel MonoSpec MonoProofs MonoProps.
From Verif Require Import McCellModel DomainModel DomainProofs SpeciesModel SpeciesProofs.
From Verif Require Import CellListModel CellListSpec CellListProofs CellListProps PairListModel PairListSpec PairListProofs.
From Coq Require Import Reals Lra.
Local Open Scope R_scope.

(** ** Distances *)
Lemma normSq_ge0 v : 0 <= normSq v.
Proof. unfold normSq, vdot. destruct v as [x y z]. cbn. nra. Qed.
Lemma norm_triangle u v : sqrt (normSq (vadd u v)) <= sqrt (normSq u) + sqrt (normSq v).
Proof.
  pose proof (sqrt_pos (normSq u)) as Ha. pose proof (sqrt_pos (normSq v)) as Hb.
  pose proof (sqrt_sqrt _ (normSq_ge0 u)) as Ea. pose proof (sqrt_sqrt _ (normSq_ge0 v)) as Eb.
  set (a := sqrt (normSq u)) in *. set (b := sqrt (normSq v)) in *.
  rewrite <- (sqrt_square (a + b)) by lra. apply sqrt_le_1_alt.
  assert (normSq (vadd u v) = normSq u + normSq v + 2 * vdot u v) as -> by (unfold normSq, vdot, vadd; cbn; ring).
  assert (vdot u v <= a * b); [|nra].
  apply Rsqr_incr_0_var; [|nra]. unfold Rsqr. replace (a * b * (a * b)) with ((a * a) * (b * b)) by ring. rewrite Ea, Eb.
  unfold normSq, vdot. destruct u as [x y z], v as [x' y' z']. cbn.
  pose proof (Rle_0_sqr (x * y' - y * x')). pose proof (Rle_0_sqr (y * z' - z * y')). pose proof (Rle_0_sqr (x * z' - z * x')).
  unfold Rsqr in *. nra.
Qed.
Lemma normSq_neg v : normSq (vscale (-1) v) = normSq v.
Proof. unfold normSq, vdot, vscale. cbn. ring. Qed.
Lemma sqrt_below x c : 0 <= x -> 0 <= c -> x < c * c -> sqrt x < c.
Proof. intros Hx Hc H. rewrite <- (sqrt_square c) by done. apply sqrt_lt_1; nra. Qed.

Lemma ortho_image b r1 r2 : a_box b ->
  exists m, distanceSq b r1 r2 = normSq (vadd (vsub r1 r2) (lattice_vector (oBrav b) m)).
Proof.
  intros Hb. destruct (owf_a_box b Hb) as (l & lat & W).
  assert (forall L x1 x2, (sep_axis (L/2) L x1 x2).1 = x1 - x2 + IZR (sep_axis (L/2) L x1 x2).2 * L) as E.
  { intros L x1 x2. unfold sep_axis. destruct (Rgt_dec _ _); [destruct (Rgt_dec _ _)|]; cbn; lra. }
  exists (V3 (sep b r1 r2 0).2 (sep b r1 r2 1).2 (sep b r1 r2 2).2).
  unfold distanceSq. rewrite !(sep_eq b l lat _ _ _ W) by lia. rewrite (w_brav _ _ _ W), normSq_get.
  assert (forall m i, (i < 3)%nat -> vget (vadd (vsub r1 r2) (lattice_vector (diag (vget l)) m)) i =
     vget r1 i - vget r2 i + IZR (vget m i) * vget l i) as G.
  { intros m i Hi. rewrite <- lattice_diag by done. destruct r1, r2. destruct i as [|[|[|]]]; try lia; done. }
  rewrite !G by lia. rewrite !E. cbn [vget vx vy vz fst]. lra.
Qed.
Lemma mono_image b r1 r2 : a_mbox b ->
  exists m, mono_distanceSq b r1 r2 = normSq (vadd (vsub r1 r2) (lattice_vector (mBrav b) m)).
Proof.
  intros Hb. destruct (mwf_a_mbox b Hb) as (l & d & W).
  assert (forall L x1 x2, (sep_axis (L/2) L x1 x2).1 = x1 - x2 + IZR (sep_axis (L/2) L x1 x2).2 * L) as E.
  { intros L x1 x2. unfold sep_axis. destruct (Rgt_dec _ _); [destruct (Rgt_dec _ _)|]; cbn; lra. }
  unfold mono_distanceSq. rewrite (mono_sep_axes b l d _ _ W).
  set (X := sep_axis (vx l / 2) (vx l) (vx r1) (vx r2)). set (Y := sep_axis (vy l / 2) (vy l) (vy r1) (vy r2)).
  set (U := sep_axis (vz l / 2) (vz l) _ _). exists (V3 X.2 Y.2 U.2).
  pose proof (E (vx l) (vx r1) (vx r2)) as EX. pose proof (E (vy l) (vy r1) (vy r2)) as EY. fold X in EX. fold Y in EY.
  rewrite (m_brav _ _ _ W). unfold lattice_vector. rewrite combo_mono. unfold normSq, vdot, vadd, vsub, vmap. cbn [vx vy vz].
  rewrite EX, EY. ring.
Qed.

Lemma close_adjacent toGen dist2 brav lens c n : 0 < c -> positive3 lens -> spans toGen brav lens -> grid_of lens c n ->
  (forall r q, exists m, dist2 r q = normSq (vadd (vsub r q) (lattice_vector brav m))) ->
  forall r q, primary (toGen r) -> primary (toGen q) -> dist2 r q < c * c -> adjacent n (ccell n (toGen r)) (ccell n (toGen q)).
Proof.
  intros Hc HL Hsp HG Him r q Hr Hq Hd. destruct (Him r q) as [m Hm].
  apply (near_adjacent 2 ltac:(lia) toGen n lens c); [done..|]. exists m. intros i Hi.
  pose proof (Hsp r q m i Hi) as Hs. rewrite <- Hm in Hs.
  apply Rsqr_incrst_0; [unfold Rsqr at 2; lra| |lra]. apply Rmult_le_pos; [apply Rabs_pos|].
  destruct HL as (? & ? & ?). destruct i as [|[|[|]]]; try lia; cbn; lra.
Qed.

(** If both atoms moved by at most skin/2 since the list was built, a pair now closer than the cutoff was then closer than
    cutoff + skin. *)
Lemma was_close brav dist2 cutoff skin (P Q P' Q' : vec3 R) m : 0 <= cutoff -> 0 < skin ->
  (forall r q, exists m, dist2 r q = normSq (vadd (vsub r q) (lattice_vector brav m))) ->
  dist2 P' P <= 1/4 * skin * skin -> dist2 Q' Q <= 1/4 * skin * skin ->
  normSq (vadd (vsub P' Q') (lattice_vector brav m)) < cutoff * cutoff ->
  exists k, normSq (vadd (vsub P Q) (lattice_vector brav k)) < (cutoff + skin) * (cutoff + skin).
Proof.
  intros Hc Hs Him HP HQ Hm. destruct (Him P' P) as [p Ep], (Him Q' Q) as [q Eq]. rewrite Ep in HP. rewrite Eq in HQ.
  set (u := vadd (vsub P' P) (lattice_vector brav p)) in *. set (v := vadd (vsub Q' Q) (lattice_vector brav q)) in *.
  set (w := vadd (vsub P' Q') (lattice_vector brav m)) in *.
  exists (V3 (vx m - vx p + vx q) (vy m - vy p + vy q) (vz m - vz p + vz q))%Z.
  assert (vadd (vsub P Q) (lattice_vector brav (V3 (vx m - vx p + vx q) (vy m - vy p + vy q) (vz m - vz p + vz q))%Z)
          = vadd (vadd (vscale (-1) u) w) v) as ->.
  { unfold u, v, w, lattice_vector, combo, vadd, vsub, vscale, vmap. cbn [vx vy vz].
    rewrite !plus_IZR, !minus_IZR. f_equal; ring. }
  pose proof (norm_triangle (vadd (vscale (-1) u) w) v) as T1. pose proof (norm_triangle (vscale (-1) u) w) as T2.
  rewrite normSq_neg in T2. pose proof (normSq_ge0 (vadd (vadd (vscale (-1) u) w) v)) as Hn.
  assert (sqrt (normSq u) <= skin / 2) as Hu.
  { rewrite <- (sqrt_square (skin / 2)) by lra. apply sqrt_le_1_alt. lra. }
  assert (sqrt (normSq v) <= skin / 2) as Hv.
  { rewrite <- (sqrt_square (skin / 2)) by lra. apply sqrt_le_1_alt. lra. }
  assert (sqrt (normSq w) < cutoff) as Hw.
  { apply sqrt_below; [apply normSq_ge0|done|done]. }
  rewrite <- (sqrt_sqrt _ Hn). pose proof (sqrt_pos (normSq (vadd (vadd (vscale (-1) u) w) v))). nra.
Qed.

(** ** C11 *)

(** What a build does, for the given transformation, distance, shift and lengths of a boundary. *)
Definition builds (M cap A Pc : nat) (toGen : vec3 R -> vec3 R) (dist2 : vec3 R -> vec3 R -> R) (wrap : vec3 R -> vec3 R)
    (lens : vec3 R) (masked : nat -> nat -> bool) (skin cutoff : R) (n : vec3 Z) (atoms : list nat) (pos : nat -> vec3 R) (p : plist) : Prop :=
  let P := fun a => wrap (pos a) in
  (exists pos' p' l, pl_refresh M toGen dist2 wrap lens masked atoms pos p = Ok (pos', p') /\
     (forall a, pos' a = if decide (a ∈ atoms) then P a else pos a) /\
     lists_close dist2 masked (cutoff + skin) atoms pos' l /\ visits p' l /\
     ~ crowded toGen n M atoms P /\ (length atoms <= A)%nat /\ (length l <= Pc)%nat) \/
  (pl_refresh M toGen dist2 wrap lens masked atoms pos p = Throw /\
     (crowded toGen n M atoms P \/ (A < length atoms)%nat \/
      exists l, lists_close dist2 masked (cutoff + skin) atoms P l /\ (Pc < length l)%nat)).

Lemma builds_general M cap A Pc toGen dist2 wrap lens brav masked skin cutoff n atoms pos p :
  0 <= cutoff -> positive3 lens -> spans toGen brav lens ->
  (forall r q, exists m, dist2 r q = normSq (vadd (vsub r q) (lattice_vector brav m))) ->
  pl_state M cap A Pc skin cutoff p -> grid_of lens (cutoff + skin) n -> NoDup atoms ->
  (forall a, a ∈ atoms -> (a < cap)%nat /\ primary (toGen (wrap (pos a)))) ->
  builds M cap A Pc toGen dist2 wrap lens masked skin cutoff n atoms pos p.
Proof.
  intros Hc HL Hsp Him Hst HG Hnd Hat. pose proof (state_stok M cap A Pc skin cutoff p Hc Hst) as [HR _ Hsk Hcut Hs0 _].
  rewrite <- Hcut in HG.
  destruct (refresh_spec M cap toGen dist2 wrap lens masked n A Pc pos atoms p HR HL HG Hnd Hat) as [H|H].
  { eapply close_adjacent; [apply HR|done..]. }
  - left. destruct H as (pos' & p' & E & H1 & H2 & _ & E1 & _ & _ & (G & L & i & Hr & _ & _ & Hlen & Hcl & Hv) & H3 & H4 & H5).
    exists pos', p', (gpairs G). split; [done|]. split.
    { intros a. destruct (decide (a ∈ atoms)); auto. }
    rewrite E1, Hcut in Hcl. split; [done|]. split; [done|]. split; [done|]. split; [done|].
    rewrite gpairs_length. pose proof (r_cap2 _ _ _ _ _ _ _ _ _ _ Hr) as Hc2. cbn in Hc2. lia.
  - right. by rewrite Hcut in H.
Qed.

(** C11.  For an orthorhombic box, any masks, skin, cutoff, capacities and configuration in which each atom is less than
    one box length outside the box, and any earlier use of the list: buildPairList shifts each atom into the box and then
    either makes a list with every unmasked pair of atoms closer than cutoff + skin once, in the order (smaller id,
    larger id), and no other pair; or it throws, and it does so only if more than MaxAtomCell atoms are in one cell, or
    there are more atoms or more such pairs than the list has room for. *)
Theorem pair_list_complete :
  forall M cap A Pc b masked skin cutoff n atoms pos p, a_box b -> 0 <= cutoff ->
  pl_state M cap A Pc skin cutoff p -> grid_of (oLen b) (cutoff + skin) n -> NoDup atoms ->
  (forall a, a ∈ atoms -> (a < cap)%nat /\ forall i, (i < 3)%nat -> - vget (oLen b) i <= vget (pos a) i < 2 * vget (oLen b) i) ->
  builds M cap A Pc (cartToGen b) (distanceSq b) (shift1 b) (oLen b) masked skin cutoff n atoms pos p.
Proof.
  intros M cap A Pc b masked skin cutoff n atoms pos p Hb Hc Hst HG Hnd Hat.
  destruct (owf_a_box b Hb) as (len & lat & W).
  assert (positive3 (oLen b)) as HL by (rewrite (w_len _ _ _ W); apply W).
  apply (builds_general M cap A Pc _ _ _ _ (oBrav b)); try done.
  - by apply ortho_spans.
  - intros r q. by apply ortho_image.
  - intros a Ha. destruct (Hat a Ha) as [H1 H2]. split; [done|].
    destruct (OrthoModel.shift b (pos a) (V3 0 0 0)%Z) as [r' s'] eqn:Es.
    destruct (ortho_shift_wraps b _ _ _ _ Hb H2 Es) as (Hin & _ & _ & -> & _).
    destruct (ortho_transforms_inverse b Hb) as (_ & _ & _ & _ & Hbox). exact (proj1 (Hbox _) Hin).
Qed.

(** C11 for a monoclinic box; "closer" is in terms of MonoclinicBoundary::distanceSq. *)
Theorem pair_list_complete_mono :
  forall M cap A Pc b masked skin cutoff n atoms pos p, a_mbox b -> 0 <= cutoff ->
  pl_state M cap A Pc skin cutoff p -> grid_of (mLengths b) (cutoff + skin) n -> NoDup atoms ->
  (forall a, a ∈ atoms -> (a < cap)%nat /\ near_cell_of (mBrav b) (pos a)) ->
  builds M cap A Pc (mono_cartToGen b) (mono_distanceSq b) (mono_shift1 b) (mLengths b) masked skin cutoff n atoms pos p.
Proof.
  intros M cap A Pc b masked skin cutoff n atoms pos p Hb Hc Hst HG Hnd Hat.
  destruct (mwf_a_mbox b Hb) as (len & d & W).
  assert (positive3 (mLengths b)) as HL.
  { rewrite (m_lens _ _ _ W). destruct (m_pos _ _ _ W) as (X & Y & Z). split; [done|]. split; [done|]. cbn.
    apply Rdiv_lt_0_compat; [done|]. apply sqrt_lt_R0. nra. }
  apply (builds_general M cap A Pc _ _ _ _ (mBrav b)); try done.
  - by apply mono_spans.
  - intros r q. by apply mono_image.
  - intros a Ha. destruct (Hat a Ha) as [H1 H2]. split; [done|].
    destruct (mono_shift b (pos a) (V3 0 0 0)%Z) as [r' s'] eqn:Es.
    destruct (mono_shift_wraps b _ _ _ _ Hb H2 Es) as (Hin & _ & _ & -> & _).
    destruct (mono_transforms_inverse b Hb) as (_ & _ & _ & _ & _ & Hbox). exact (proj1 (Hbox _) Hin).
Qed.

(** Other facts about the same configuration, used in the examples: few atoms never crowd a cell. *)
Lemma few_not_crowded toGen n M atoms pos : (length atoms <= M)%nat -> ~ crowded toGen n M atoms pos.
Proof.
  intros H (c & l & Hnd & Hsub & _ & Hlen). assert (length l <= length atoms)%nat; [|lia].
  apply submseteq_length, NoDup_submseteq; [done|]. intros a Ha. by apply Hsub.
Qed.

(** ** C12 *)

(** C12 for McMd::PairIterator.  Whatever was done with the list, a loop over it visits exactly the pairs stored, in order,
    and then ends: it makes as many steps as there are pairs. *)
Theorem pair_iterator_correct :
  forall M cap A Pc skin cutoff p, 0 <= cutoff -> pl_state M cap A Pc skin cutoff p ->
  Z.of_nat (length (stored p)) = pN2 p /\
  (forall fuel, (length (stored p) < fuel)%nat -> it_loop fuel (pl_begin p) = Ok (Some (stored p))) /\
  (forall fuel, (fuel <= length (stored p))%nat -> it_loop fuel (pl_begin p) = Ok None) /\
  Forall (fun x => is_Some x.1 /\ is_Some x.2) (stored p).
Proof.
  intros M cap A Pc skin cutoff p Hc Hst.
  destruct (state_stok M cap A Pc skin cutoff p Hc Hst) as [_ (pos & G & L & i & Hr & HF) _ _ _ _].
  pose proof (rep_visits _ _ _ _ _ _ _ _ Hr HF) as HV. rewrite (rep_stored A Pc _ _ _ _ _ _ Hr). rewrite map_length, gpairs_length.
  split; [pose proof (r_n2 _ _ _ _ _ _ _ _ _ _ Hr) as E; cbn in E; rewrite Nat.add_0_r in E; by rewrite E|].
  split; [intros fuel Hf; apply HV; by rewrite gpairs_length|]. split.
  - intros fuel Hf.
    assert (HN : forall d f it l, it_loop (f + d) it = Ok (Some l) -> (f <= length l)%nat -> it_loop f it = Ok None).
    { intros d f. revert d. induction f as [|f IH]; intros d it l; [done|]. cbn [Nat.add it_loop].
      destruct (it_end it); [intros [= <-]; cbn; lia|]. destruct (it_pair it); cbn [obind]; [|done..]. destruct (it_next it); cbn [obind]; [|done..].
      intros (r & E & H)%obind_Ok Hl. injection H as H. destruct r as [r|]; [|done]. cbn in H. injection H as <-. cbn in Hl.
      rewrite (IH d _ _ E ltac:(lia)). done. }
    apply (HN (S (length (flat G)) - fuel)%nat fuel _ (map (fun x => (Some x.1, Some x.2)) (gpairs G))).
    + replace (fuel + (S (length (flat G)) - fuel))%nat with (S (length (flat G))) by lia. apply HV. rewrite gpairs_length. lia.
    + rewrite map_length, gpairs_length. done.
  - apply Forall_map, Forall_forall. intros x _. cbn. split; by eexists.
Qed.

(** ** C13 *)

Definition current_is_safe (brav : vec3 (vec3 R)) (dist2 : vec3 R -> vec3 R -> R) (masked : nat -> nat -> bool) (cutoff skin : R)
    (atoms : list nat) (old : nat -> vec3 R) (p : plist) : Prop :=
  forall new, exists c : bool, pl_isCurrent dist2 new p = Ok c /\
    (c = true <-> forall a, a ∈ atoms -> dist2 (new a) (old a) <= (skin / 2) * (skin / 2)) /\
    (c = true -> forall i j m, i ∈ atoms -> j ∈ atoms -> (i < j)%nat -> masked i j = false ->
       normSq (vadd (vsub (new i) (new j)) (lattice_vector brav m)) < cutoff * cutoff ->
       (Some i, Some j) ∈ stored p).

Lemma current_general M cap A Pc toGen dist2 wrap lens brav masked skin cutoff n atoms pos p pos' p' :
  0 <= cutoff -> positive3 lens -> spans toGen brav lens ->
  (forall r q, exists m, dist2 r q = normSq (vadd (vsub r q) (lattice_vector brav m))) ->
  pl_state M cap A Pc skin cutoff p -> grid_of lens (cutoff + skin) n -> NoDup atoms ->
  (forall a, a ∈ atoms -> (a < cap)%nat /\ primary (toGen (wrap (pos a)))) ->
  (forall r q m, primary (toGen r) -> primary (toGen q) ->
     normSq (vadd (vsub r q) (lattice_vector brav m)) < (cutoff + skin) * (cutoff + skin) ->
     dist2 r q < (cutoff + skin) * (cutoff + skin)) ->
  pl_refresh M toGen dist2 wrap lens masked atoms pos p = Ok (pos', p') ->
  current_is_safe brav dist2 masked cutoff skin atoms pos' p'.
Proof.
  intros Hc HL Hsp Him Hst HG Hnd Hat Hmin Href. pose proof (state_stok M cap A Pc skin cutoff p Hc Hst) as [HR _ Hsk Hcut Hs0 Hcnt].
  rewrite <- Hcut in HG.
  destruct (refresh_spec M cap toGen dist2 wrap lens masked n A Pc pos atoms p HR HL HG Hnd Hat) as [H|H].
  { eapply close_adjacent; [apply HR|done..]. }
  2:{ rewrite (proj1 H) in Href. done. }
  destruct H as (pos1 & p1 & E & H1 & H2 & _ & E1 & E2 & E3 & HB & _).
  rewrite Href in E. injection E as <- <-. intros new.
  destruct (isCurrent_spec dist2 masked A Pc pos' new atoms p' HB ltac:(lia)) as (c & Hcur & Hiff).
  rewrite E2, Hsk in Hiff. exists c. split; [done|]. split.
  { rewrite Hiff. replace (skin / 2 * (skin / 2)) with (1 / 4 * skin * skin) by field. done. }
  intros Hct i j m Hi Hj Hlt Hm Hd. pose proof (proj1 Hiff Hct) as Hmv.
  destruct HB as (G & L & i0 & Hr & _ & _ & _ & [_ Hcl] & _).
  rewrite (rep_stored A Pc _ _ _ _ _ _ Hr).
  apply (elem_of_list_fmap_1 (fun x => (Some x.1, Some x.2)) _ (i, j)). apply Hcl. rewrite E1, Hcut.
  unfold close. cbn [fst snd]. do 4 (split; [done|]).
  destruct (was_close brav dist2 cutoff skin (pos' i) (pos' j) (new i) (new j) m Hc Hs0 Him (Hmv i Hi) (Hmv j Hj) Hd) as [k Hk].
  apply (Hmin _ _ k); [rewrite H1 by done; by apply Hat..|done].
Qed.

(** C13, what is true.  Build the list in an orthorhombic box.  Later, for any positions of the atoms, isCurrent does not go
    out of range, and returns true exactly if no atom is more than skin/2 from where it was; and then every unmasked pair
    with any image closer than the cutoff of the potential is in the list.  The box is the same when isCurrent is called;
    if it has changed, the property is false (below).  Histories in which the list was cleared since are also excluded,
    see below. *)
Theorem pair_list_current_partial :
  forall M cap A Pc b masked skin cutoff n atoms pos p pos' p', a_box b -> 0 <= cutoff ->
  pl_state M cap A Pc skin cutoff p -> grid_of (oLen b) (cutoff + skin) n -> NoDup atoms ->
  (forall a, a ∈ atoms -> (a < cap)%nat /\ forall i, (i < 3)%nat -> - vget (oLen b) i <= vget (pos a) i < 2 * vget (oLen b) i) ->
  pl_refresh M (cartToGen b) (distanceSq b) (shift1 b) (oLen b) masked atoms pos p = Ok (pos', p') ->
  current_is_safe (oBrav b) (distanceSq b) masked cutoff skin atoms pos' p'.
Proof.
  intros M cap A Pc b masked skin cutoff n atoms pos p pos' p' Hb Hc Hst HG Hnd Hat Href.
  destruct (owf_a_box b Hb) as (len & lat & W).
  assert (positive3 (oLen b)) as HL by (rewrite (w_len _ _ _ W); apply W).
  apply (current_general M cap A Pc (cartToGen b) _ (shift1 b) (oLen b) _ _ _ _ n _ pos p); try done.
  - by apply ortho_spans.
  - intros r q. by apply ortho_image.
  - intros a Ha. destruct (Hat a Ha) as [H1 H2]. split; [done|].
    destruct (OrthoModel.shift b (pos a) (V3 0 0 0)%Z) as [r' s'] eqn:Es.
    destruct (ortho_shift_wraps b _ _ _ _ Hb H2 Es) as (Hin & _ & _ & -> & _).
    destruct (ortho_transforms_inverse b Hb) as (_ & _ & _ & _ & Hbox). exact (proj1 (Hbox _) Hin).
  - intros r q m Hr Hq Hd. pose proof (ortho_distanceSq_min_image b r q Hb) as HMI.
    destruct (distanceSq_shift b r q) as [d t]. destruct (distanceSq_dr b r q) as [d' dr].
    destruct HMI as (E1 & _ & _ & _ & Hmin & _).
    + intros i Hi. pose proof (proj2 (proj2 (proj2 (ortho_transforms_inverse b Hb)))) as Hbox.
      destruct Hbox as [_ Hbox]. pose proof (proj2 (Hbox r) Hr i Hi). pose proof (proj2 (Hbox q) Hq i Hi).
      unfold Rabs. destruct (Rcase_abs _); lra.
    + specialize (Hmin m). rewrite <- E1. lra.
Qed.

(** C13 for a monoclinic box, with cutoff + skin at most half of minLength(); otherwise distanceSq need not find the nearest
    image ([mono_min_image_refuted]). *)
Theorem pair_list_current_mono_partial :
  forall M cap A Pc b masked skin cutoff n atoms pos p pos' p', a_mbox b -> 0 <= cutoff -> cutoff + skin <= mMinLen b / 2 ->
  pl_state M cap A Pc skin cutoff p -> grid_of (mLengths b) (cutoff + skin) n -> NoDup atoms ->
  (forall a, a ∈ atoms -> (a < cap)%nat /\ near_cell_of (mBrav b) (pos a)) ->
  pl_refresh M (mono_cartToGen b) (mono_distanceSq b) (mono_shift1 b) (mLengths b) masked atoms pos p = Ok (pos', p') ->
  current_is_safe (mBrav b) (mono_distanceSq b) masked cutoff skin atoms pos' p'.
Proof.
  intros M cap A Pc b masked skin cutoff n atoms pos p pos' p' Hb Hc Hml Hst HG Hnd Hat Href.
  destruct (mwf_a_mbox b Hb) as (len & d & W).
  assert (positive3 (mLengths b)) as HL.
  { rewrite (m_lens _ _ _ W). destruct (m_pos _ _ _ W) as (X & Y & Z). split; [done|]. split; [done|]. cbn.
    apply Rdiv_lt_0_compat; [done|]. apply sqrt_lt_R0. nra. }
  pose proof (st_sk0 _ _ _ _ _ _ (state_stok M cap A Pc skin cutoff p Hc Hst)) as Hs0.
  apply (current_general M cap A Pc (mono_cartToGen b) _ (mono_shift1 b) (mLengths b) _ _ _ _ n _ pos p); try done.
  - by apply mono_spans.
  - intros r q. by apply mono_image.
  - intros a Ha. destruct (Hat a Ha) as [H1 H2]. split; [done|].
    destruct (mono_shift b (pos a) (V3 0 0 0)%Z) as [r' s'] eqn:Es.
    destruct (mono_shift_wraps b _ _ _ _ Hb H2 Es) as (Hin & _ & _ & -> & _).
    destruct (mono_transforms_inverse b Hb) as (_ & _ & _ & _ & _ & Hbox). exact (proj1 (Hbox _) Hin).
  - intros r q m Hr Hq Hd. pose proof (mono_distanceSq_image_partial b r q Hb) as HMI.
    destruct (mono_distanceSq_shift b r q) as [d2 t]. destruct (mono_distanceSq_dr b r q) as [d' dr].
    destruct HMI as (E1 & _ & _ & _ & _ & _ & Hmin).
    + intros i Hi. pose proof (Hr i Hi). pose proof (Hq i Hi). unfold Rabs. destruct (Rcase_abs _); lra.
    + destruct (Hmin m) as [E _]; [nra|]. rewrite <- E1, E. done.
Qed.

(** The clauses of the theorems apply: a 10 x 10 x 10 box, cutoff 1 and skin 1/2.  Atoms 0 and 1 are 3/5 apart through a
    face, atom 2 is alone, atom 3 is next to atom 2 but masked from it. *)
Definition ex_box : ortho := box [SetOrtho (V3 10 10 10)].
Definition ex_pos (a : nat) : vec3 R :=
  match a with 0%nat => V3 (1/5) 1 1 | 1%nat => V3 (-2/5) 1 1 | 2%nat => V3 5 5 5 | _ => V3 5 5 6 end.
Definition ex_masked (i j : nat) : bool := bool_decide (i = 2%nat /\ j = 3%nat).

Lemma init_state M cap A Pc skin cutoff : (0 < cap)%nat -> (0 < A)%nat -> (0 < Pc)%nat -> 0 < skin ->
  exists p, pl_initialize (Z.of_nat cap) cutoff (pl_read (Z.of_nat A) (Z.of_nat Pc) skin) = Ok p /\ pl_state M cap A Pc skin cutoff p.
Proof.
  intros H1 H2 H3 H4. assert (exists p, pl_initialize (Z.of_nat cap) cutoff (pl_read (Z.of_nat A) (Z.of_nat Pc) skin) = Ok p) as [p Hp].
  { unfold pl_initialize. destruct (Rle_dec _ _) as [Hs|]; [cbn in Hs; lra|]. rewrite bool_decide_eq_true_2 by lia. cbn [check obind].
    unfold pl_allocate. cbn [pAcap pPcap pl_read]. rewrite !bool_decide_eq_true_2 by lia. cbn [check obind].
    rewrite (zset_nat (replicate (Z.to_nat (Z.of_nat A + 1)) (-1)%Z) 0 0%Z : _ -> zset _ 0 0%Z = _)
        by (rewrite replicate_length; lia). cbn [obind]. by eexists. }
  exists p. split; [done|]. by constructor.
Qed.

Lemma ex_wf : exists lat, owf ex_box (V3 10 10 10) lat.
Proof.
  assert (HF : Forall box_op_ok [SetOrtho (V3 10 10 10)]) by (repeat constructor; unfold positive3; simpl; lra).
  eexists. exact (owf_box _ HF).
Qed.
Lemma ex_a_box : a_box ex_box.
Proof.
  exists [SetOrtho (V3 10 10 10)]. split; [|done]. repeat constructor; unfold positive3; simpl; lra.
Qed.
Lemma ex_grid b l lat : owf b l lat -> l = V3 10 10 10 -> grid_of (oLen b) (1 + 1/2) (V3 6 6 6)%Z.
Proof.
  intros W ->. rewrite (w_len _ _ _ W). intros [|[|[|]]] Hi; try lia; cbn [vget vx vy vz];
    (split; [lia|]; split; [rewrite plus_IZR; lra|right; lra]).
Qed.
Lemma sep_in L x y : Rabs (x - y) <= L / 2 -> sep_axis (L / 2) L x y = (x - y, 0%Z).
Proof. intros H. unfold sep_axis. destruct (Rgt_dec _ _); [lra|done]. Qed.
Lemma sep_lo L x y : L / 2 < Rabs (x - y) -> x < y -> sep_axis (L / 2) L x y = (x - y + L, 1%Z).
Proof. intros H Hlt. unfold sep_axis. destruct (Rgt_dec _ _); [|lra]. destruct (Rgt_dec _ _); [lra|done]. Qed.

Example pair_list_example :
  exists p pos' p', pl_state 61 4 4 1 (1/2) 1 p /\
    pl_refresh 61 (cartToGen ex_box) (distanceSq ex_box) (shift1 ex_box) (oLen ex_box) ex_masked [0; 1; 2; 3]%nat ex_pos p = Ok (pos', p') /\
    pos' 1%nat = V3 (48/5) 1 1 /\ stored p' = [(Some 0%nat, Some 1%nat)] /\
    (exists new, new <> pos' /\ pl_isCurrent (distanceSq ex_box) new p' = Ok true).
Proof.
  destruct ex_wf as [lat W]. pose proof ex_a_box as Hb.
  destruct (init_state 61 4 4 1 (1/2) 1 ltac:(lia) ltac:(lia) ltac:(lia) ltac:(lra)) as (p & Hp & Hst). exists p.
  assert (Hat : forall a, a ∈ [0; 1; 2; 3]%nat -> (a < 4)%nat /\ forall i, (i < 3)%nat ->
      - vget (oLen ex_box) i <= vget (ex_pos a) i < 2 * vget (oLen ex_box) i).
  { intros a Ha. rewrite (w_len _ _ _ W). rewrite !elem_of_cons in Ha.
    destruct Ha as [->|[->|[->|[->|Ha]]]]; [..|by apply elem_of_nil in Ha]; (split; [lia|]);
      intros [|[|[|]]] Hi; try lia; cbn [ex_pos vget vx vy vz]; lra. }
  pose proof (ex_grid _ _ _ W eq_refl) as HG.
  assert (Hnd : NoDup [0; 1; 2; 3]%nat) by (apply (bool_decide_eq_true_1 (NoDup _)); reflexivity).
  assert (HS : forall a, shift1 ex_box (ex_pos a) = match a with 1%nat => V3 (48/5) 1 1 | _ => ex_pos a end).
  { intros a. unfold shift1. rewrite (w_min _ _ _ W), (w_max _ _ _ W), (w_len _ _ _ W). unfold shift1_axis.
    destruct a as [|[|[|]]]; cbn [ex_pos vget vx vy vz vzero]; repeat (destruct (Rge_dec _ _); [lra|]); repeat destruct (Rlt_dec _ _); try lra; f_equal; lra. }
  assert (HD : forall a b x y z x' y' z', a = V3 x y z -> b = V3 x' y' z' ->
    distanceSq ex_box a b = (sep_axis (10/2) 10 x x').1 * (sep_axis (10/2) 10 x x').1 + (sep_axis (10/2) 10 y y').1 * (sep_axis (10/2) 10 y y').1
      + (sep_axis (10/2) 10 z z').1 * (sep_axis (10/2) 10 z z').1).
  { intros a b x y z x' y' z' -> ->. unfold distanceSq. rewrite !(sep_eq _ _ _ _ _ _ W) by lia. cbn [vget vx vy vz]. lra. }
  assert (HC : forall P, (forall a, a ∈ [0; 1; 2; 3]%nat -> P a = shift1 ex_box (ex_pos a)) ->
    forall x, close (distanceSq ex_box) ex_masked (1 + 1/2) [0; 1; 2; 3]%nat P x <-> x = (0, 1)%nat).
  { intros P HP [i j]. unfold close. cbn [fst snd]. split.
    - intros (Hi & Hj & Hlt & Hm & Hd). rewrite !HP, !HS in Hd by done. rewrite !elem_of_cons in Hi, Hj.
      destruct Hi as [->|[->|[->|[->|Hi]]]]; [..|by apply elem_of_nil in Hi];
      destruct Hj as [->|[->|[->|[->|Hj]]]]; try (by apply elem_of_nil in Hj); try lia; try done; exfalso;
      cbn [ex_pos] in Hd; rewrite (HD _ _ _ _ _ _ _ _ eq_refl eq_refl) in Hd;
      rewrite !sep_in in Hd by (apply Rabs_le; lra); cbn [fst] in Hd; lra.
    - intros [= -> ->]. rewrite !HP, !HS by (rewrite !elem_of_cons; tauto).
      split; [rewrite !elem_of_cons; tauto|]. split; [rewrite !elem_of_cons; tauto|]. split; [lia|]. split; [done|].
      cbn [ex_pos]. rewrite (HD _ _ _ _ _ _ _ _ eq_refl eq_refl). rewrite sep_lo by (try lra; rewrite Rabs_left by lra; lra).
      rewrite !sep_in by (apply Rabs_le; lra). cbn [fst]. lra. }
  assert (HLC : forall P l, (forall a, a ∈ [0; 1; 2; 3]%nat -> P a = shift1 ex_box (ex_pos a)) ->
     lists_close (distanceSq ex_box) ex_masked (1 + 1/2) [0; 1; 2; 3]%nat P l -> l = [(0, 1)%nat]).
  { intros P l HP [Hn Hl]. setoid_rewrite (HC P HP) in Hl. apply Permutation_length_1_inv, NoDup_Permutation; [|done|].
    - apply (bool_decide_eq_true_1 (NoDup _)). reflexivity.
    - intros x. rewrite Hl. by rewrite elem_of_list_singleton. }
  destruct (pair_list_complete 61 4 4 1 ex_box ex_masked (1/2) 1 (V3 6 6 6)%Z [0; 1; 2; 3]%nat ex_pos p Hb ltac:(lra) Hst HG Hnd Hat)
    as [(pos' & p' & l & Href & Hpos & Hcl & Hv & _)|(_ & [Hbad|[Hbad|(l & Hcl & Hbad)]])].
  2:{ by apply few_not_crowded in Hbad; [|cbn; lia]. }
  2:{ cbn in Hbad. lia. }
  2:{ apply HLC in Hcl as ->; [cbn in Hbad; lia|done]. }
  assert (Hpos' : forall a, a ∈ [0; 1; 2; 3]%nat -> pos' a = shift1 ex_box (ex_pos a)).
  { intros a Ha. rewrite Hpos. by rewrite decide_True. }
  apply HLC in Hcl as ->; [|done].
  exists pos', p'. split; [done|]. split; [done|]. split.
  { rewrite Hpos', HS by (rewrite !elem_of_cons; tauto). done. }
  assert (Hst' : pl_state 61 4 4 1 (1/2) 1 p').
  { revert Href. unfold pl_refresh. intros ([] & _ & H)%obind_Ok. apply obind_Ok in H as (p1 & H1 & H).
    apply obind_Ok in H as ([q1 p2] & H2 & H). apply obind_Ok in H as (p3 & H3 & H). injection H as _ <-.
    eapply PS_build; [|exact H3]. apply (PS_setup _ _ _ _ _ _ _ _ _ Hst) in H1. revert H1 H2. clear.
    generalize p1, ex_pos, [0; 1; 2; 3]%nat. clear. intros p1 pos xs. revert pos p1. induction xs as [|x xs IH]; intros pos p1 H1; cbn [foldM].
    - by intros [= <- <-].
    - intros ([q p'] & Ha & H2)%obind_Ok. eapply IH; [|exact H2]. unfold pl_enter in Ha. apply obind_Ok in Ha as (p'' & Ha & [= <- <-]).
      by eapply PS_add. }
  split.
  { destruct (pair_iterator_correct _ _ _ _ _ _ _ (Rle_0_1) Hst') as (_ & HI & _).
    specialize (HI (S (S (length (stored p')))) ltac:(lia)). rewrite (Hv (S (S (length (stored p')))) ltac:(cbn [length]; lia)) in HI. by injection HI as <-. }
  exists (fun a => if decide (a = 2%nat) then V3 5 5 (51/10) else pos' a). split.
  { intros E. assert (E' : V3 5 5 (51/10) = pos' 2%nat) by (rewrite <- E; done).
    rewrite Hpos', HS in E' by (rewrite !elem_of_cons; tauto). injection E' as E'. lra. }
  destruct (pair_list_current_partial 61 4 4 1 ex_box ex_masked (1/2) 1 (V3 6 6 6)%Z [0; 1; 2; 3]%nat ex_pos p pos' p' Hb ltac:(lra) Hst HG Hnd Hat Href
    (fun a => if decide (a = 2%nat) then V3 5 5 (51/10) else pos' a)) as (c & Hc & Hiff & _).
  rewrite Hc. f_equal. apply Hiff. intros a Ha. destruct (decide (a = 2%nat)) as [->|Hne].
  - rewrite Hpos', HS by done. cbn [ex_pos]. rewrite (HD _ _ _ _ _ _ _ _ eq_refl eq_refl). rewrite !sep_in by (apply Rabs_le; lra). cbn [fst]. lra.
  - destruct (pos' a) as [x y z]. rewrite (HD _ _ _ _ _ _ _ _ eq_refl eq_refl). rewrite !sep_in by (apply Rabs_le; lra). cbn [fst]. lra.
Qed.

(** C13 is false if the box changes: NphIntegrator changes it in every step, and then asks isCurrent whether to rebuild the
    list (NphIntegrator.cpp:211, 258 and 305).  The list is built in a cube of side 10 with cutoff 1 and skin 1/2, for atoms
    at x = 1/4 and x = 87/10, 31/20 apart.  The edge then becomes 99/10 and each atom moves by 1/4, no more than skin/2:
    they are 19/20 apart, isCurrent returns true, and the list is empty. *)
Theorem pair_list_current_box_refuted :
  let b1 := box [SetOrtho (V3 10 10 10)] in let b2 := box [SetOrtho (V3 10 10 10); SetOrtho (V3 (99/10) (99/10) (99/10))] in
  let pos := fun a : nat => if decide (a = 0%nat) then V3 (1/4) 1 1 else V3 (87/10) 1 1 in
  let new := fun a : nat => if decide (a = 0%nat) then V3 0 1 1 else V3 (179/20) 1 1 in
  exists p pos' p', pl_state 61 2 2 1 (1/2) 1 p /\
    (forall a, in_box b1 (pos a) /\ in_box b2 (new a)) /\
    pl_refresh 61 (cartToGen b1) (distanceSq b1) (shift1 b1) (oLen b1) (fun _ _ => false) [0; 1]%nat pos p = Ok (pos', p') /\
    (forall a, pos' a = pos a) /\
    pl_isCurrent (distanceSq b2) new p' = Ok true /\
    distanceSq b2 (new 0%nat) (new 1%nat) < 1 * 1 /\ stored p' = [].
Proof.
  intros b1 b2 pos new. destruct ex_wf as [lat W]. pose proof ex_a_box as Hb. fold ex_box in b1. subst b1.
  assert (HF2 : Forall box_op_ok [SetOrtho (V3 10 10 10); SetOrtho (V3 (99/10) (99/10) (99/10))]) by (repeat constructor; unfold positive3; simpl; lra).
  pose proof (owf_box _ HF2) as W2. fold b2 in W2. change (edges [SetOrtho (V3 10 10 10); SetOrtho (V3 (99/10) (99/10) (99/10))]) with (V3 (99/10) (99/10) (99/10)) in W2.
  assert (Hin : forall a, in_box ex_box (pos a) /\ in_box b2 (new a)).
  { intros a. unfold in_box. rewrite (w_len _ _ _ W), (w_len _ _ _ W2). unfold pos, new. destruct (decide _);
      split; intros [|[|[|]]] Hi; try lia; cbn [vget vx vy vz]; lra. }
  destruct (init_state 61 2 2 1 (1/2) 1 ltac:(lia) ltac:(lia) ltac:(lia) ltac:(lra)) as (p & Hp & Hst). exists p.
  assert (Hat : forall a, a ∈ [0; 1]%nat -> (a < 2)%nat /\ forall i, (i < 3)%nat ->
      - vget (oLen ex_box) i <= vget (pos a) i < 2 * vget (oLen ex_box) i).
  { intros a Ha. split; [rewrite !elem_of_cons, elem_of_nil in Ha; lia|]. intros i Hi. pose proof (proj1 (Hin a) i Hi). lra. }
  assert (Hwrap : forall a, shift1 ex_box (pos a) = pos a).
  { intros a. unfold shift1. rewrite (w_min _ _ _ W), (w_max _ _ _ W), (w_len _ _ _ W). unfold shift1_axis, pos.
    destruct (decide _); cbn [vget vx vy vz vzero]; repeat (destruct (Rge_dec _ _); [lra|]); repeat destruct (Rlt_dec _ _); try lra; f_equal; lra. }
  assert (HD : forall L b, owf b (V3 L L L) (oLat b) -> forall r q x y z x' y' z', r = V3 x y z -> q = V3 x' y' z' ->
    distanceSq b r q = (sep_axis (L/2) L x x').1 * (sep_axis (L/2) L x x').1 + (sep_axis (L/2) L y y').1 * (sep_axis (L/2) L y y').1
      + (sep_axis (L/2) L z z').1 * (sep_axis (L/2) L z z').1).
  { intros L b Wb r q x y z x' y' z' -> ->. unfold distanceSq. rewrite !(sep_eq _ _ _ _ _ _ Wb) by lia. cbn [vget vx vy vz]. lra. }
  assert (WA : owf ex_box (V3 10 10 10) (oLat ex_box)) by (by rewrite (w_lat _ _ _ W)).
  assert (WB : owf b2 (V3 (99/10) (99/10) (99/10)) (oLat b2)) by (by rewrite (w_lat _ _ _ W2)).
  assert (HLC : forall P l, (forall a, a ∈ [0; 1]%nat -> P a = pos a) ->
     lists_close (distanceSq ex_box) (fun _ _ => false) (1 + 1/2) [0; 1]%nat P l -> l = []).
  { intros P l HP [Hn Hl]. destruct l as [|[i j] l]; [done|]. exfalso.
    assert (close (distanceSq ex_box) (fun _ _ => false) (1 + 1/2) [0; 1]%nat P (i, j)) as (Hi & Hj & Hlt & _ & Hd) by (apply Hl; left).
    cbn [fst snd] in *. rewrite !HP in Hd by done. rewrite !elem_of_cons, elem_of_nil in Hi, Hj. assert (i = 0 /\ j = 1)%nat as [-> ->] by lia.
    change (pos 0%nat) with (V3 (1/4) 1 1) in Hd. change (pos 1%nat) with (V3 (87/10) 1 1) in Hd.
    rewrite (HD _ _ WA _ _ _ _ _ _ _ _ eq_refl eq_refl) in Hd. rewrite sep_lo in Hd by (try lra; rewrite Rabs_left by lra; lra).
    rewrite !sep_in in Hd by (apply Rabs_le; lra). cbn [fst] in Hd. lra. }
  pose proof (ex_grid _ _ _ W eq_refl) as HG.
  assert (Hnd : NoDup [0; 1]%nat) by (apply (bool_decide_eq_true_1 (NoDup _)); reflexivity).
  destruct (owf_a_box _ Hb) as (len0 & lat0 & W0).
  assert (HL : positive3 (oLen ex_box)) by (rewrite (w_len _ _ _ W0); apply W0).
  pose proof (state_stok 61 2 2 1 (1/2) 1 p ltac:(lra) Hst) as [HR _ Hsk Hcut Hs0 Hcnt].
  assert (Hprim : forall a, a ∈ [0; 1]%nat -> (a < 2)%nat /\ primary (cartToGen ex_box (shift1 ex_box (pos a)))).
  { intros a Ha. split; [by apply Hat|]. rewrite Hwrap.
    destruct (ortho_transforms_inverse _ Hb) as (_ & _ & _ & _ & Hbox). exact (proj1 (Hbox _) (proj1 (Hin a))). }
  destruct (refresh_spec 61 2 (cartToGen ex_box) (distanceSq ex_box) (shift1 ex_box) (oLen ex_box) (fun _ _ => false) (V3 6 6 6)%Z 2 1 pos [0; 1]%nat p HR HL
    ltac:(rewrite Hcut; exact HG) Hnd Hprim) as [H|[_ H]].
  { eapply close_adjacent; [apply HR|done|by apply ortho_spans|rewrite Hcut; exact HG|intros; by apply ortho_image]. }
  2:{ exfalso. destruct H as [H|[H|(l & H & H')]]; [apply few_not_crowded in H; [done|cbn; lia]|cbn in H; lia|].
      rewrite Hcut in H. apply HLC in H as ->; [cbn in H'; lia|]. intros a _. apply Hwrap. }
  destruct H as (pos' & p' & Href & H1 & H2 & _ & E1 & E2 & E3 & HB & _).
  assert (Hpos : forall a, pos' a = pos a).
  { intros a. destruct (decide (a ∈ [0; 1]%nat)); [rewrite H1 by done; apply Hwrap|by apply H2]. }
  exists pos', p'. split; [done|]. split; [done|]. split; [done|]. split; [done|].
  destruct HB as (G & L & i & Hr & HF & Hm & Hlen & Hcl & Hv). rewrite E1, Hcut in Hcl. apply HLC in Hcl as EG; [|by intros; apply Hpos].
  destruct (isCurrent_rep (distanceSq b2) 2 1 pos' new [0; 1]%nat p') as (c & Hc & Hiff); [by exists G, L, i|lia|].
  split.
  { rewrite Hc. f_equal. apply Hiff. intros a _. rewrite E2, Hsk, Hpos. unfold pos, new. destruct (decide _); rewrite (HD _ _ WB _ _ _ _ _ _ _ _ eq_refl eq_refl);
    rewrite !sep_in by (apply Rabs_le; lra); cbn [fst]; lra. }
  split.
  - change (new 0%nat) with (V3 0 1 1). change (new 1%nat) with (V3 (179/20) 1 1).
    rewrite (HD _ _ WB _ _ _ _ _ _ _ _ eq_refl eq_refl). rewrite sep_lo by (try lra; rewrite Rabs_left by lra; lra).
    rewrite !sep_in by (apply Rabs_le; lra). cbn [fst]. lra.
  - rewrite (rep_stored 2 1 _ _ _ _ _ _ Hr). by rewrite EG.
Qed.

(** C13 is also false if the list is cleared after it was built: an empty list is current for all positions. *)
Theorem pair_list_cleared_current_refuted :
  forall M cap A Pc skin cutoff p dist2 new, 0 <= cutoff -> pl_state M cap A Pc skin cutoff p -> (0 < pCount p)%Z ->
  exists q, pl_clear M p = Ok q /\ pl_isCurrent dist2 new q = Ok true /\ stored q = [].
Proof.
  intros M cap A Pc skin cutoff p dist2 new Hc Hst Hn. pose proof (state_stok M cap A Pc skin cutoff p Hc Hst) as Hok.
  assert (Hok' : stok cap A Pc skin cutoff (pl_cells p (cl_clear M (pCells p)))).
  { apply cells_stok; [done|]. cbn. rewrite replicate_length. apply Hok. }
  unfold pl_clear. destruct (pl_reset _) as [q| |] eqn:E.
  - exists q. split; [done|]. destruct (reset_listed _ _ _ _ _ _ _ Hok' E) as ((pos & G & L & i & Hr & _) & Eq & _).
    assert (pN1 q = 0%Z /\ pT q = (pAcap q - 1)%Z /\ pCount q = pCount p) as (E1 & E2 & E3) by (rewrite Eq; done).
    split.
    + unfold pl_isCurrent. rewrite decide_False by lia. rewrite E1, E2. cbn [pl_cur seqZ Z.to_nat seq map obind fmap list_fmap].
      replace (pAcap q - 1 - (pAcap q - 1))%Z with 0%Z by lia. done.
    + unfold stored. by rewrite E1.
  - exfalso. revert E. unfold pl_reset. rewrite (zset_nat (pFirst _) 0 0%Z : _ -> zset (pFirst _) 0 0%Z = _); [done|].
    cbn. destruct Hok as [[] _ _ _ _ _]. lia.
  - exfalso. revert E. unfold pl_reset. rewrite (zset_nat (pFirst _) 0 0%Z : _ -> zset (pFirst _) 0 0%Z = _); [done|].
    cbn. destruct Hok as [[] _ _ _ _ _]. lia.
Qed.

Print Assumptions pair_list_complete.
Print Assumptions pair_list_complete_mono.
Print Assumptions pair_iterator_correct.
Print Assumptions pair_list_current_partial.
Print Assumptions pair_list_current_mono_partial.
Print Assumptions pair_list_current_box_refuted.
Print Assumptions pair_list_cleared_current_refuted.
