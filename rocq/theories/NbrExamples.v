(** Iteration over pair lists of the parallel program, examples for the theorems of NbrProps and NbrRefuted, and what they depend on. *)
From Verif Require Import Base Vec3 BoxSpec OrthoModel OrthoSpec OrthoProofs MonoModel MonoSpec MonoProofs DomainModel DomainSpec DomainProofs SpeciesModel SpeciesProofs
  NbrModel NbrSpec NbrOffsets NbrCells NbrGet NbrSearch NbrPairs NbrIter NbrProofs.
From Verif Require Import NbrProps NbrRefuted.
From Coq Require Import Reals Lra.
Local Open Scope R_scope.

(** The pairs stored by a list: the secondary atoms first_[i], ..., first_[i+1]-1 belong to primary atom i (PairList.h:204-206). *)
Definition stored (p : dplist) : list (nat * nat) :=
  flat_map (fun x => map (pair x.1) (take (x.2.2 - x.2.1) (drop x.2.1 (vA2 p)))) (zip (vA1 p) (zip (vFirst p) (tail (vFirst p)))).
Lemma stored_sums L : forall pre A, A = pre ++ seconds L ->
  flat_map (fun x => map (pair x.1) (take (x.2.2 - x.2.1) (drop x.2.1 A))) (zip (map fst L) (zip (length pre :: sums (length pre) L) (sums (length pre) L))) = pairs_of L.
Proof.
  induction L as [|[a bs] L IH]; intros pre A HA; [done|]. rewrite seconds_cons in HA. cbn [snd] in HA.
  cbn [map fst sums snd zip zip_with flat_map]. unfold pairs_of. cbn [flat_map]. f_equal.
  - cbn [fst snd]. f_equal. rewrite HA, drop_app. replace (length pre + length bs - length pre)%nat with (length bs) by lia. by rewrite take_app.
  - assert (length pre + length bs = length (pre ++ bs))%nat as -> by (by rewrite app_length).
    apply IH. by rewrite HA, app_assoc.
Qed.
(** C12 for the parallel program: a loop over a list built from any cell list sees exactly the stored pairs, in order, and all
    secondary atoms are in stored pairs. *)
Theorem dd_pair_iterator_correct : forall s rev cutoff r masked p p', dpl_build s rev cutoff r masked p = Ok p' ->
  visits p' (stored p') /\ map snd (stored p') = vA2 p'.
Proof.
  intros s rev cutoff r masked p p' E. pose proof E as E'. unfold dpl_build in E'. destruct (wBuilt s) eqn:HB; [|done]. cbn [check obind] in E'.
  destruct (decide (0 < vCap1 p)%nat) as [H1|]; [|by rewrite bool_decide_false in E']. rewrite bool_decide_true in E' by done. cbn [check obind] in E'.
  destruct (decide (0 < vCap2 p)%nat) as [H2|]; [|by rewrite bool_decide_false in E']. rewrite bool_decide_true in E' by done. cbn [check obind] in E'.
  destruct (dd_primary _ _ _ _ _) as [l| |] eqn:EP; [|done..]. clear E'.
  destruct (dpl_build_spec s rev cutoff r masked p l HB H1 H2 EP) as (q & Eq & E1 & E2 & E3 & _). rewrite E in Eq. injection Eq as <-.
  assert (stored p' = pairs_of (nonempty l)) as ES.
  { unfold stored. rewrite E1, E2, E3. cbn [tail]. apply (stored_sums (nonempty l) []). done. }
  split.
  - rewrite ES. split; [done|]. intros it fuel Hend Hf. eapply loop_all; try done. apply nonempty_Forall.
  - rewrite ES, E2. generalize (nonempty l). intros L. induction L as [|[a bs] L IH]; [done|].
    unfold pairs_of in *. cbn [flat_map]. rewrite map_app, IH, seconds_cons. cbn [snd fst]. f_equal. rewrite map_map. cbn [snd]. apply map_id.
Qed.

(** ** Examples *)
(** A box of side 4, of which a processor owns the octant at the origin; cutoff 1, two cells per cutoff; local atoms 0 and 1
    at distance 0.8, and ghost 2 at distance 0.8 from 1, beyond the upper x face. *)
Definition cube4 : ortho := box [SetOrtho (V3 4 4 4)].
Lemma cube4_ok : a_box cube4.
Proof. exists [SetOrtho (V3 4 4 4)]. split; [|done]. constructor; [|constructor]. simpl. unfold positive3; simpl. lra. Qed.
Lemma cube4_len : oLen cube4 = V3 4 4 4.
Proof. unfold cube4, box. simpl. unfold setOrthorhombic, ortho_reset. simpl. f_equal; lra. Qed.
Definition pos4 (a : nat) : vec3 R := match a with 0%nat => V3 (1 / 5) (1 / 4) (1 / 4) | 1%nat => V3 (2 / 5) (1 / 4) (1 / 4) | _ => V3 (3 / 5) (1 / 4) (1 / 4) end.
Lemma pos4_holding : holding 3 zero3 half3 [0; 1]%nat [2]%nat pos4.
Proof.
  constructor; [apply (bool_decide_unpack _); by vm_compute|simpl; lia| |].
  - intros a Ha. unfold owned. rewrite !elem_of_cons in Ha. destruct Ha as [->|[->|Ha]]; [..|by apply elem_of_nil in Ha]; unfold pos4; cbn [vx vy vz]; lra.
  - intros a Ha%elem_of_list_singleton. subst a. unfold owned, pos4. cbn [vx vy vz]. lra.
Qed.
Lemma near4 a b : (a = 0 /\ b = 1 \/ a = 1 /\ b = 0 \/ a = 1 /\ b = 2)%nat -> interacts 1 (fun a => genToCart cube4 (pos4 a)) (fun _ _ => false) a b.
Proof.
  intros H. split; [|done]. unfold within, normSq, vdot, vsub, genToCart. rewrite cube4_len.
  destruct H as [[-> ->]|[[-> ->]|[-> ->]]]; unfold pos4; cbn [vx vy vz]; lra.
Qed.
Lemma cube4_wide : wide_enough zero3 half3 (scaled 1 (oLen cube4)) 2.
Proof. rewrite cube4_len. unfold wide_enough, scaled. cbn [vx vy vz]. split; [lia|lra]. Qed.
Lemma cube4_built : exists s, buildCellList 3 zero3 half3 (scaled 1 (oLen cube4)) 2 [0; 1]%nat [2]%nat pos4 (dcl_new 0) = Ok s.
Proof.
  pose proof (cell_list_build_defined 3 zero3 half3 (scaled 1 (oLen cube4)) 2 [0; 1]%nat [2]%nat pos4 (dcl_new 0) (acl_new 0)) as H.
  specialize (H (scaled_pos 1 _ ltac:(lra) (ortho_len_pos _ cube4_ok)) ltac:(simpl; lia)).
  destruct (buildCellList _ _ _ _ _ _ _ _ _) as [s| |]; [by exists s| |done]. exfalso. apply H, cube4_wide.
Qed.
Lemma cube4_two : 2 * (1 / vz (oLen cube4)) <= vz half3 - vz zero3.
Proof. rewrite cube4_len. cbn [vx vy vz]. lra. Qed.
Lemma cube4_pairs rev s : buildCellList 3 zero3 half3 (scaled 1 (oLen cube4)) 2 [0; 1]%nat [2]%nat pos4 (dcl_new 0) = Ok s ->
  exists p', buildPairList 3 s rev 1 (fun a => genToCart cube4 (pos4 a)) (fun _ _ => false) dpl_new = Ok p'.
Proof.
  intros E. destruct (pair_list_build_defined cube4 1 3 3 zero3 half3 2 [0; 1]%nat [2]%nat pos4 (fun _ _ => false) rev (dcl_new 0) s dpl_new) as [_ H];
    [apply cube4_ok|lra|apply acl_new|apply pos4_holding|done|right; apply cube4_two|done|lia|].
  apply H; [simpl; lia|]. right. exists 0%nat, 1%nat. split; [by left|]. split; [by right; left|]. split; [done|]. apply near4. lia.
Qed.
(** The hypotheses of nbr_reverse_once and nbr_once_partial can be met, and the pairs are what they should be: without
    reverse communication (0,1) or (1,0), and (1,2). *)
Example cube4_once : exists s p' l, buildCellList 3 zero3 half3 (scaled 1 (oLen cube4)) 2 [0; 1]%nat [2]%nat pos4 (dcl_new 0) = Ok s /\
  buildPairList 3 s false 1 (fun a => genToCart cube4 (pos4 a)) (fun _ _ => false) dpl_new = Ok p' /\ visits p' l /\
  ((0, 1) ∈ l \/ (1, 0) ∈ l)%nat /\ (1, 2)%nat ∈ l /\ NoDup l.
Proof.
  destruct cube4_built as (s & E). destruct (cube4_pairs false s E) as (p' & E'). exists s, p'.
  destruct (nbr_once_partial cube4 1 3 3 zero3 half3 2 [0; 1]%nat [2]%nat pos4 (fun _ _ => false) (dcl_new 0) s dpl_new p') as (l & V & [C1 _ C3 C4]);
    [apply cube4_ok|lra|apply acl_new|apply pos4_holding|done|apply cube4_two|done|done|].
  exists l. split; [done|]. split; [done|]. split; [done|]. split; [|split; [|done]].
  - destruct (C3 0%nat 1%nat) as [[H _]|[H _]]; [by left|by right; left|done|apply near4; lia|by left|by right].
  - apply C4; [by right; left|by left|apply near4; lia|by left].
Qed.
(** With reverse communication (1,2) is listed too, because 2 lies beyond the upper face. *)
Example cube4_reverse : exists s p' l, buildCellList 3 zero3 half3 (scaled 1 (oLen cube4)) 2 [0; 1]%nat [2]%nat pos4 (dcl_new 0) = Ok s /\
  buildPairList 3 s true 1 (fun a => genToCart cube4 (pos4 a)) (fun _ _ => false) dpl_new = Ok p' /\ visits p' l /\ (1, 2)%nat ∈ l.
Proof.
  destruct cube4_built as (s & E). destruct (cube4_pairs true s E) as (p' & E'). exists s, p'.
  destruct (nbr_reverse_once cube4 1 3 3 zero3 half3 2 [0; 1]%nat [2]%nat pos4 (fun _ _ => false) (dcl_new 0) s dpl_new p') as (l & V & [_ _ _ C4]);
    [apply cube4_ok|lra|apply acl_new|apply pos4_holding|done|done|done|].
  exists l. split; [done|]. split; [done|]. split; [done|]. apply C4; [by right; left|by left|apply near4; lia|]. right. left.
  unfold cell_at. cbn [vx]. unfold scaled. rewrite cube4_len. cbn [vx]. unfold cell_along.
  assert (cells_across 0 (1 / 2) (1 / 4) 2 = 4%Z) as -> by (unfold cells_across; apply Int_part_eq; simpl; lra).
  unfold pos4. cbn [vx]. rewrite (Int_part_eq ((2 / 5 - 0) / _) 3), (Int_part_eq ((3 / 5 - 0) / _) 4) by (simpl; lra). lia.
Qed.
(** Two processors: the other one owns the region beyond the upper x face, where atom 2 is its local atom 0 and atom 1 its
    ghost 1. *)
Example cube4_other : forall near near' l l',
  counted_once true [0; 1]%nat [2]%nat near (fun x y => lex_lt (cell_at zero3 half3 (V3 (1 / 4) (1 / 4) (1 / 4)) 2 (pos4 x)) (cell_at zero3 half3 (V3 (1 / 4) (1 / 4) (1 / 4)) 2 (pos4 y))) l ->
  let lo := V3 (1 / 2) 0 0 in let up := V3 1 (1 / 2) (1 / 2) in let g' a := pos4 (2 - a) in
  counted_once true [0]%nat [1]%nat near' (fun x y => lex_lt (cell_at lo up (V3 (1 / 4) (1 / 4) (1 / 4)) 2 (g' x)) (cell_at lo up (V3 (1 / 4) (1 / 4) (1 / 4)) 2 (g' y))) l' ->
  near 1%nat 2%nat -> near' 0%nat 1%nat -> (((1, 2) ∈ l /\ (0, 1) ∉ l') \/ ((0, 1) ∈ l' /\ (1, 2) ∉ l))%nat.
Proof.
  intros near near' l l' C lo up g' C' N N'.
  eapply (nbr_reverse_two_processors zero3 half3 lo up (V3 (1 / 4) (1 / 4) (1 / 4)) 2 [0; 1]%nat [2]%nat [0]%nat [1]%nat pos4 g' near near' l l' 1 2 1 0 (V3 1 0 0)%Z).
  - unfold wide_enough. cbn [vx vy vz]. split; [lia|lra].
  - cbn [vx vy vz]. lra.
  - unfold vsub, lo, up. cbn [vx vy vz]. f_equal; lra.
  - apply (ho_local _ _ _ _ _ _ pos4_holding).
  - apply (ho_ghost _ _ _ _ _ _ pos4_holding).
  - done.
  - done.
  - by right; left.
  - by left.
  - by left.
  - by left.
  - done.
  - done.
  - unfold vsub, vadd, lo, up, g', pos4. simpl. f_equal; lra.
  - unfold vsub, vadd, lo, up, g', pos4. simpl. f_equal; lra.
Qed.
(** The hypotheses of pair_list_first_build_refuted can be met: one atom. *)
Example one_atom : exists s, buildCellList 1 zero3 half3 (scaled 1 (oLen cube4)) 2 [0]%nat [] pos4 (dcl_new 0) = Ok s /\
  buildPairList 1 s true 1 (fun a => genToCart cube4 (pos4 a)) (fun _ _ => false) dpl_new = Throw.
Proof.
  pose proof (cell_list_build_defined 1 zero3 half3 (scaled 1 (oLen cube4)) 2 [0]%nat [] pos4 (dcl_new 0) (acl_new 0)) as H.
  specialize (H (scaled_pos 1 _ ltac:(lra) (ortho_len_pos _ cube4_ok)) ltac:(simpl; lia)).
  destruct (buildCellList _ _ _ _ _ _ _ _ _) as [s| |] eqn:E; [|exfalso; apply H, cube4_wide|done]. exists s. split; [done|].
  eapply (pair_list_first_build_refuted cube4 1 1 1 zero3 half3 2 [0]%nat [] pos4 (fun _ _ => false) true (dcl_new 0) s dpl_new);
    [apply cube4_ok|lra|apply acl_new| |done|by left|done|done|].
  - constructor; [apply (bool_decide_unpack _); by vm_compute|simpl; lia| |intros a Ha; by apply elem_of_nil in Ha].
    intros a Ha%elem_of_list_singleton. subst a. apply (ho_local _ _ _ _ _ _ pos4_holding). by left.
  - intros a c Ha%elem_of_list_singleton Hc Hne. rewrite app_nil_r in Hc. apply elem_of_list_singleton in Hc. congruence.
Qed.
(** Monoclinic: the skew box with one cell per cutoff. *)
Example skew_once : exists s, buildCellList 3 zero3 half3 (scaled 1 (mLengths skew)) 1 [0; 1; 2]%nat [] skew_pos (dcl_new 0) = Ok s /\
  forall p p', buildPairList 3 s true 1 (fun a => mono_genToCart skew (skew_pos a)) (fun _ _ => false) p = Ok p' ->
  exists l, visits p' l /\ ((0, 1) ∈ l \/ (1, 0) ∈ l)%nat.
Proof.
  destruct nbr_mono_lost_refuted as (_ & _ & _ & _ & Hh & _ & _ & Hi & _).
  pose proof (cell_list_build_defined 3 zero3 half3 (scaled 1 (mLengths skew)) 1 [0; 1; 2]%nat [] skew_pos (dcl_new 0) (acl_new 0)) as H.
  specialize (H (scaled_pos 1 _ ltac:(lra) (mono_len_pos _ skew_ok)) ltac:(simpl; lia)).
  destruct (buildCellList _ _ _ _ _ _ _ _ _) as [s| |] eqn:E; [| |done].
  2:{ exfalso. apply H. rewrite skew_cut. unfold wide_enough. cbn [vx vy vz]. split; [lia|lra]. }
  exists s. split; [done|]. intros p p' E'.
  destruct (nbr_mono_once_partial skew 1 3 3 zero3 half3 [0; 1; 2]%nat [] skew_pos (fun _ _ => false) true (dcl_new 0) s p p') as (l & V & [_ _ C3 _]);
    [apply skew_ok|lra|apply acl_new|done|done|by left|done|done|].
  exists l. split; [done|]. destruct (C3 0%nat 1%nat) as [[H' _]|[H' _]]; [by left|by right; left|done|done|by left|by right].
Qed.

Print Assumptions cell_list_build_defined.
Print Assumptions nbr_reverse_once.
Print Assumptions nbr_once_partial.
Print Assumptions nbr_mono_once_partial.
Print Assumptions nbr_reverse_two_processors.
Print Assumptions nbr_thin_refuted.
Print Assumptions nbr_mono_lost_refuted.
Print Assumptions offsets_cover_cutoff.
Print Assumptions offsets_cover_mono_partial.
Print Assumptions offsets_mono_refuted.
Print Assumptions pair_list_first_build_refuted.
Print Assumptions pair_list_build_defined.
Print Assumptions dd_pair_iterator_correct.
