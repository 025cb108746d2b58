(** Property C106: the reptation move with configuration bias. *)
From Coq Require Import Reals Lra.
From Coquelicot Require Import Coquelicot.
From stdpp Require Import gmap.
From Verif Require Import Base Vec3 BoxSpec OrthoModel OrthoSpec OrthoProofs OrthoProps MonoModel MonoSpec MonoProofs MonoProps.
From Verif Require Import McCellModel DomainModel DomainProofs SpeciesModel SpeciesProofs SpeciesBuild.
From Verif Require Import CellListModel CellListSpec CellListProofs CellListProps PairListModel PairListSpec PairListProofs PairListProps.
From Verif Require Import EnergyModel EnergySpec EnergyProofs MoveModel MoveSpec MoveProofs EnergyProps MoveProps BalanceSpec BalanceProps.
From Verif Require Import MdModel MdForces CfbModel CfbSpec CfbProofs CfbSteps CfbProps ReptModel ReptSpec ReptProofs ReptSteps.
From Coq Require Import Reals Lra.
Local Open Scope R_scope.

Lemma junctions_in tys jn : jn ∈ junctions tys <->
  exists i l u, jn = (i, l, u) /\ tys !! i = Some l /\ tys !! S i = Some u /\ l <> u.
Proof.
  unfold junctions. rewrite elem_of_list_In, in_flat_map. split.
  - intros (i & Hi & Hin). destruct (tys !! i) as [l|] eqn:E1; [|done]. destruct (tys !! S i) as [u|] eqn:E2; [|done].
    destruct (decide (l = u)); [done|]. destruct Hin as [<-|[]]. by exists i, l, u.
  - intros (i & l & u & -> & E1 & E2 & Hne). exists i. split.
    + apply in_seq. apply lookup_lt_Some in E2. lia.
    + rewrite E1, E2, decide_False by done. by left.
Qed.
Lemma end_of (mol : list nat) (plus : bool) i : (i < length mol)%nat ->
  nth_atom (if plus then mol else rev mol) i = nth_atom mol (if plus then i else length mol - 1 - i).
Proof. intros Hi. destruct plus; [done|]. unfold nth_atom. rewrite rev_nth by done. f_equal. lia. Qed.

(** C106: what the move does.  Take either boundary; any pair interaction and external potential, no angle potential; either policy for masks; any linear chain
    of two or more atoms of any types, all bonds of one type, of a system whose configuration is held by the cell list; either direction; any number of trials; and
    random choices with bonds not longer than a cell.  The move runs without error, and
    - the new configuration has every atom of the chain at the place of its successor, and the head at the trial position chosen;
    - if accepted, the system has the new configuration, and if not it has the old one; types and masks are as before; the cell list holds the system;
    - the ratio compared with the random number is the product of three factors: the Boltzmann factor of the difference in energy between the new
      configuration without its head and the old one without its tail; the sum over the trial positions of the head of the Boltzmann factor of the energy needed
      to put it there, when every atom has the type that its place had before the move; and the inverse of the same for the old tail. *)
Theorem reptate_weights :
  forall M cap B sep u cut ext beta bonded n atoms mk mol t (plus : bool) dels draw bs k b0 z s,
  (2 <= M)%nat -> a_boundary B -> interaction_ok cut u -> grid_of (bLens B) cut n -> NoDup atoms ->
  synced M cap (bGen B) (bLens B) cut n atoms s -> mol ⊆ atoms -> NoDup mol -> (2 <= length mol)%nat -> chain_masks bonded (mask_of mk) mol ->
  bs !! k = Some b0 ->
  let N := length mol in
  let c := if plus then mol else rev mol in
  let tail := nth_atom c 0 in
  let head := nth_atom c (N - 1) in
  let len := sqrt (bDist B (sPos s (nth_atom c 1)) (sPos s tail)) in
  let behind := fun b => vadd (sPos s (nth_atom c 1)) (vscale (-1) (vscale len b)) in
  let ahead := fun b => vadd (sPos s head) (vscale (-1) (vscale (draw t) b)) in
  let moved := fun b => reptated c (sPos s) (bWrap B (ahead b)) in
  (forall b, b ∈ dels -> near_cell_of (bBrav B) (behind b)) -> (forall b, b ∈ bs -> near_cell_of (bBrav B) (ahead b)) ->
  (forall i, (i <= N)%nat -> ~ crowded (bGen B) n (M - 1) atoms (midway c i (moved b0) (sPos s))) ->
  let E := site_energy (bDist B) (mask_of mk) u ext in
  let Eold := E (without atoms tail) (sPos s) (sTy s) in
  let Wf := weight_of beta (map (fun b => E atoms (moved b) (reptated c (sTy s) (sTy s head)) - Eold) bs) in
  let Wr := weight_of beta (map (fun q => E atoms (move (sPos s) tail q) (sTy s) - Eold) (sPos s tail :: map (fun b => bWrap B (behind b)) dels)) in
  let ratio := exp (- beta * (E (without atoms head) (moved b0) (sTy s) - Eold)) * Wf / Wr in
  exists s' mk',
    rp_move M (bGen B) (bDist B) (bWrap B) sep u None ext beta bonded mk mol (replicate (N - 1) t) (map (sTy s) mol) plus dels draw bs k z s =
      Ok (ratio, s', mk', metropolis ratio z) /\
    (forall a, sPos s' a = (if metropolis ratio z then moved b0 else sPos s) a) /\ (forall a, sTy s' a = sTy s a) /\
    (forall a b, mask_of mk' a b = mask_of mk a b) /\ synced M cap (bGen B) (bLens B) cut n atoms s'.
Proof.
  intros M cap B sep u cut ext beta bonded n atoms mk mol t plus dels draw bs k b0 z s HM HB (Hc & Hcut & Hu) HG HA Hs Hsub Hnd Hn Hmask0 Hb0
    N c tail head len behind ahead moved Hr1 Hr2 Hcr E Eold Wf Wr ratio.
  pose proof (boundary_facts B HB) as F. pose proof (boundary_adj B cut n HB Hc HG) as Hadj.
  assert (length c = N) as Hlen by (unfold c; destruct plus; [done|apply rev_length]).
  assert (NoDup c) as Hcd. { unfold c. destruct plus; [done|]. apply NoDup_ListNoDup, List.NoDup_rev. by apply NoDup_ListNoDup. }
  assert (c ⊆ atoms) as HcA. { intros a Ha. apply Hsub. unfold c in Ha. destruct plus; [done|]. rewrite elem_of_list_In, <- in_rev, <- elem_of_list_In in Ha. done. }
  assert (chain_masks bonded (mask_of mk) c) as Hmask. { unfold c. destruct plus; [done|]. by apply chain_masks_rev. }
  assert (2 <= length c)%nat as Hn' by lia.
  pose proof Hmask as [Hsym _]. clear Hmask0.
  assert (head = nth_atom c (length c - 1)) as Ehd by (unfold head; by rewrite Hlen).
  assert (forall i, (i < N)%nat -> aget c i = Ok (nth_atom c i)) as Eg by (intros i Hi; unfold aget; by rewrite nth_in by lia).
  assert (forall i, (i < N - 1)%nat -> aget (replicate (N - 1) t) i = Ok t) as Eb by (intros i Hi; unfold aget; by rewrite lookup_replicate_2).
  assert (tail ∈ atoms) as HtA by (apply HcA, nth_elem; lia). assert (head ∈ atoms) as HhA by (apply HcA, nth_elem; lia).
  assert (nth_atom c 1 <> tail) as Hnt by (apply at_ne; done || lia). assert (head <> tail) as Hht by (apply at_ne; done || lia).
  assert (forall a, a ∈ atoms -> primary (bGen B (sPos s a))) as Hprim.
  { intros a. by apply (holding_prim M cap HM (bGen B) (bLens B) cut n atoms (bf_pos B F) Hc HG _ _ a Hs). }
  unfold rp_move. fold c. fold N. rewrite !Eg by lia. cbn [obind]. fold tail. fold head.
  set (ud := if decide (3 <= N)%nat then _ else _).
  assert (exists d, ud = Ok d) as [d ->].
  { unfold ud. destruct (decide (3 <= N)%nat); [|eauto]. rewrite Eg by lia. cbn [obind]. rewrite Eb by (destruct plus; lia). eexists. reflexivity. }
  cbn [obind].
  destruct (rp_delete_ok M cap HM (bGen B) (bDist B) (bWrap B) sep (bLens B) n u cut ext beta (bf_pos B F) Hc HG Hadj Hcut (bf_sym B F) Hu
    mk (mask_of mk) atoms tail (nth_atom c 1) s d dels HA HtA Hnt Hsym ltac:(done) Hs) as (s1 & E1 & C1 & T1 & P1).
  { intros b Hb. apply (bf_wrap B F). by apply Hr1. }
  rewrite E1. cbn [obind]. fold len. fold E. fold Eold.
  change (weight_of beta _) with Wr.
  destruct (holding_delete M cap HM (bGen B) (bLens B) cut n (bf_pos B F) Hc HG atoms (without atoms tail) (sCells s) (sPos s) tail Hs HtA) as (l1 & D1 & Hl1).
  { intros b. by rewrite without_in. }
  rewrite C1, D1. cbn [obind]. rewrite Eb by (destruct plus; lia). cbn [obind].
  set (s2 := set_type (MC (sPos s1) (sTy s1) l1) tail (sTy s1 head)). set (mk2 := set_mask bonded mk tail head).
  set (ua := if decide (3 <= N)%nat then _ else _).
  assert (exists d, ua = Ok d) as [d2 ->].
  { unfold ua. destruct (decide (3 <= N)%nat); [|eauto]. rewrite Eg by lia. cbn [obind]. rewrite Eb by (destruct plus; lia). eexists. reflexivity. }
  cbn [obind].
  set (mid := mid_mask c bonded (mask_of mk)).
  assert (forall i j, mid i j = mid j i) as Hmid by (intros; apply mid_sym; done).
  assert (forall b, b ∈ without atoms tail -> sPos s2 b = sPos s b) as P2. { intros b [_ Hb]%without_in. unfold s2. cbn [set_type sPos]. by apply P1. }
  destruct (rp_add_ok M cap HM (bGen B) (bDist B) (bWrap B) sep (bLens B) n u cut ext beta (bf_pos B F) Hc HG Hadj Hcut (bf_sym B F) Hu
    mk2 mid atoms tail head s2 (sPos s) (sPos s) d2 (draw t) bs k b0 HA HtA HhA Hht Hmid) as (s3 & E3 & C3 & T3 & Q3 & P3).
  { intros b [_ Hb]%without_in. unfold mk2, set_mask, mask_of, mid, mid_mask. fold tail. rewrite !decide_True by done. rewrite <- Ehd.
    destruct bonded; cbn [andb]; [apply bool_decide_ext; by rewrite elem_of_list_singleton|]. apply bool_decide_eq_false, not_elem_of_nil. }
  { done. }
  { done. }
  { done. }
  { intros b Hb. apply (bf_wrap B F). by apply Hr2. }
  { done. }
  rewrite E3. cbn [obind].
  set (ty3 := sTy s2) in *.
  assert (forall a, ty3 a = if decide (a = tail) then sTy s head else sTy s a) as Ety3. { intros a. unfold ty3, s2. cbn [set_type sTy]. by rewrite !T1. }
  assert (weight_of beta (map (fun b => site_energy (bDist B) mid u ext atoms (move (sPos s) tail (bWrap B (vadd (sPos s head) (vscale (-1) (vscale (draw t) b))))) ty3 -
            site_energy (bDist B) mid u ext (without atoms tail) (sPos s) ty3) bs) = Wf) as EWf.
  { unfold Wf. f_equal. apply map_ext. intros b. f_equal.
    - symmetry. unfold E, moved. apply (relabel (bDist B) u ext (nxt c) atoms atoms mid (mask_of mk)); [done|by apply nxt_perm| |done|done|apply (bf_sym B F)|done|..].
      + intros x y _ _. by apply nxt_inj.
      + intros a _. rewrite rep_nxt by done. unfold move. fold tail. by destruct (decide (nxt c a = tail)).
      + intros a _. rewrite rep_nxt by done. rewrite Ety3. done.
      + intros a b' _ _. unfold mid. by apply mid_nxt.
    - unfold Eold, E. apply site_ext; [done| |].
      + intros a [_ Ha]%without_in. rewrite Ety3. by rewrite decide_False.
      + intros a b' [_ Ha]%without_in [_ Hb]%without_in. unfold mid, mid_mask. fold tail. by rewrite !decide_False. }
  rewrite EWf. clear EWf E1 E3.
  set (js := junctions (map (sTy s) mol)).
  set (key := fun jn : nat * Z * Z => nth_atom mol (if plus then S jn.1.1 else jn.1.1)).
  assert (forall jn, jn ∈ js -> exists i, (S i < N)%nat /\ key jn = nth_atom c (S i) /\ sTy s (nth_atom c (S i)) = (if plus then jn.2 else jn.1.2) /\
            sTy s (nth_atom c i) = (if plus then jn.1.2 else jn.2) /\ (S jn.1.1 < N)%nat) as Hjs.
  { intros jn (i & l & up & -> & L1 & L2 & Hne)%junctions_in. cbn [fst snd].
    rewrite list_lookup_fmap in L1, L2. pose proof (fmap_Some_1 _ _ _ L1) as (a1 & A1 & B1). pose proof (fmap_Some_1 _ _ _ L2) as (a2 & A2 & B2).
    pose proof (lookup_lt_Some _ _ _ A2) as Hlt. fold N in Hlt. rewrite nth_in in A1, A2 by (fold N; lia). injection A1 as <-. injection A2 as <-.
    exists (if plus then i else N - 2 - i)%nat. unfold key. cbn [fst snd]. unfold c. rewrite !end_of by (fold N; destruct plus; lia). fold N.
    destruct plus.
    - split_and!; [lia|done|done|done|lia].
    - replace (N - 1 - S (N - 2 - i))%nat with i by lia. replace (N - 1 - (N - 2 - i))%nat with (S i) by lia. split_and!; [lia|done|done|done|lia]. }
  assert (forall i, (S i < N)%nat -> sTy s (nth_atom c i) <> sTy s (nth_atom c (S i)) -> exists jn, jn ∈ js /\ key jn = nth_atom c (S i)) as Hjs2.
  { intros i Hi Hne. set (j := (if plus then i else N - 2 - i)%nat). assert (S j < N)%nat as Hj by (unfold j; destruct plus; lia).
    exists (j, sTy s (nth_atom mol j), sTy s (nth_atom mol (S j))). split.
    - apply junctions_in. eexists _, _, _. split; [reflexivity|]. rewrite !list_lookup_fmap, !nth_in by (fold N; lia). split; [done|]. split; [done|].
      unfold c in Hne. rewrite !end_of in Hne by (fold N; lia). fold N in Hne. unfold j. destruct plus; [done|].
      replace (N - 1 - S i)%nat with (N - 2 - i)%nat in Hne by lia. replace (N - 1 - i)%nat with (S (N - 2 - i)) in Hne by lia. congruence.
    - unfold key. cbn [fst]. unfold c. rewrite end_of by (fold N; lia). fold N. unfold j. destruct plus; [done|]. f_equal. lia. }
  assert (forall b, b ∈ without atoms tail -> sPos s b = sPos s3 b) as P3'. { intros b Hb. rewrite P3 by (by apply without_in in Hb as [_ ?]). symmetry. by apply P2. }
  set (hs := map (fun jn => (key jn, if plus then jn.1.2 else jn.2)) js). set (ty' := retypes (sTy s3) hs).
  assert (forall i, (S i < N)%nat -> ty' (nth_atom c (S i)) = sTy s (nth_atom c i)) as Hty'.
  { intros i Hi. unfold ty'. apply retypes_val.
    - intros t' (jn & [= Ek ->] & Hjn)%elem_of_list_fmap. destruct (Hjs jn Hjn) as (i' & H1 & H2 & H3 & H4 & H5). rewrite H2 in Ek.
      apply nth_inj in Ek; [|done|lia..]. injection Ek as ->. done.
    - destruct (decide (sTy s (nth_atom c i) = sTy s (nth_atom c (S i)))) as [Ee|Hne].
      + right. rewrite T3. fold ty3. rewrite Ety3, decide_False by (apply at_ne; done || lia). done.
      + left. destruct (Hjs2 i Hi Hne) as (jn & Hjn & Ek). eexists. apply elem_of_list_fmap. exists jn. rewrite <- Ek. done. }
  assert (forall a, a ∉ c -> ty' a = sTy s a) as Hty''.
  { intros a Ha. unfold ty'. rewrite retypes_keep.
    - rewrite T3. fold ty3. rewrite Ety3, decide_False; [done|]. intros ->. apply Ha, nth_elem. lia.
    - intros t' (jn & [= -> _] & Hjn)%elem_of_list_fmap. destruct (Hjs jn Hjn) as (i' & H1 & H2 & _). apply Ha. rewrite H2. apply nth_elem. lia. }
  assert (exists s4, (if decide (js = []) then Ok (s3, 1) else junction_factor M (bGen B) (bDist B) u ext beta s3 mk2 mol plus js) =
      Ok (s4, exp (- beta * (E (without atoms head) (moved b0) (sTy s) - Eold))) /\ sPos s4 = sPos s3 /\ sCells s4 = sCells s3 /\ forall a, sTy s4 a = sTy s3 a) as (s4 & E4 & P4 & C4 & T4).
  { destruct (junction_ok M cap HM (bGen B) (bDist B) (bWrap B) sep (bLens B) n u cut ext beta (bf_pos B F) Hc HG Hadj Hcut (bf_sym B F) Hu
      mk2 (mask_of mk) (without atoms tail) s3 (sPos s) key mol plus js) as (s4 & E4 & X4).
    - by apply without_nodup.
    - done.
    - intros a b [_ Ha]%without_in _. unfold mk2, set_mask, mask_of. by rewrite decide_False.
    - by rewrite C3.
    - done.
    - intros jn Hjn. destruct (Hjs jn Hjn) as (i & H1 & H2 & H3 & H4 & H5). split.
      + unfold key, aget. rewrite nth_in; [done|]. fold N. destruct plus; lia.
      + rewrite H2. apply without_in. split; [apply HcA, nth_elem; lia|]. apply at_ne; done || lia.
    - intros jn Hjn. destruct (Hjs jn Hjn) as (i & H1 & H2 & H3 & H4 & H5). rewrite H2, T3. fold ty3. rewrite Ety3, decide_False by (apply at_ne; done || lia). done.
    - exists s4. split; [|done].
      assert (site_energy (bDist B) (mask_of mk) u ext (without atoms tail) (sPos s3) ty' - site_energy (bDist B) (mask_of mk) u ext (without atoms tail) (sPos s3) (sTy s3) =
              E (without atoms head) (moved b0) (sTy s) - Eold) as EJ.
      { f_equal.
        - rewrite (site_ext (bDist B) u ext (without atoms tail) (mask_of mk) (mask_of mk) (sPos s) (sPos s3) ty' ty'); [|intros; symmetry; by apply P3'|done|done].
          symmetry. unfold E. rewrite Ehd. apply (relabel (bDist B) u ext (nxt c)); [by apply without_nodup|by apply nxt_perm_without| |done|done|apply (bf_sym B F)|done|..].
          + intros x y _ _. by apply nxt_inj.
          + intros a [_ Ha]%without_in. unfold moved. rewrite rep_nxt by done. rewrite decide_False; [done|]. by rewrite nxt_tail.
          + intros a [_ Ha]%without_in. destruct (decide (a ∈ c)) as [Hac|Hac]; [|by rewrite nxt_out, Hty''].
            destruct (at_of c a Hac) as (i & Hi & ->). rewrite nxt_at by done. destruct (decide (S i < length c)%nat); [|exfalso; apply Ha; f_equal; lia]. symmetry. apply Hty'. lia.
          + intros a b [_ Ha]%without_in [_ Hb]%without_in. by apply (mask_shift c Hcd Hn' bonded).
        - unfold Eold, E. apply site_ext; [intros; symmetry; by apply P3'| |done]. intros a [_ Ha]%without_in. rewrite T3. fold ty3. by rewrite Ety3, decide_False. }
      fold hs in E4. fold ty' in E4. rewrite EJ in E4. destruct (decide (js = [])) as [Ej|]; [|done]. rewrite Ej in E4. cbn in E4. injection E4 as <- E5. rewrite <- E5. done. }
  rewrite E4. cbn [obind]. fold ratio.
  set (s5 := set_type s4 tail (sTy s tail)). set (mk3 := set_mask bonded mk2 tail (nth_atom c 1)).
  assert (forall a, sTy s5 a = sTy s a) as T5.
  { intros a. unfold s5. cbn [set_type sTy]. destruct (decide (a = tail)) as [->|Ha]; [done|]. rewrite T4, T3. fold ty3. by rewrite Ety3, decide_False. }
  assert (forall a b, mask_of mk3 a b = mask_of mk a b) as Hmk3.
  { intros a b. unfold mk3, mk2, set_mask, mask_of. destruct (decide (a = tail)) as [->|Ha]; [|done].
    apply eq_true_iff_eq. rewrite bool_decide_eq_true. destruct Hmask as [_ Hmask]. fold (mask_of mk tail b). unfold tail. rewrite Hmask by lia. destruct bonded.
    - rewrite elem_of_list_singleton. split.
      + intros ->. split; [done|]. exists 1%nat. split; [lia|]. split; [done|]. by left.
      + intros [_ (k' & Hk & -> & Hor)]. f_equal. lia.
    - split; [intros X; by apply elem_of_nil in X|]. by intros [? _]. }
  assert (tail < cap)%nat as Hcap by (by apply (holding_cap M cap HM (bGen B) (bLens B) cut n (bf_pos B F) Hc HG atoms _ _ tail Hs)).
  assert (sCells s5 = l1) as C5 by (unfold s5; cbn [set_type sCells]; by rewrite C4, C3).
  assert (forall b, b <> tail -> sPos s5 b = sPos s b) as P5. { intros b Hb. unfold s5. cbn [set_type sPos]. rewrite P4, P3 by done. unfold s2. cbn [set_type sPos]. by apply P1. }
  destruct (metropolis ratio z).
  - destruct (shift_ok M cap HM (bGen B) (bWrap B) sep (bLens B) n cut (bf_pos B F) Hc HG atoms c Hcd HcA Hn' s5 (sPos s) (bWrap B (ahead b0))) as (s6 & E6 & P6 & T6 & H6).
    + by rewrite C5.
    + done.
    + done.
    + unfold s5. cbn [set_type sPos]. rewrite P4. exact Q3.
    + done.
    + apply (bf_wrap B F), Hr2. by eapply elem_of_list_lookup_2.
    + rewrite Hlen. exact Hcr.
    + rewrite E6. cbn [obind]. exists s6, mk3. split; [done|]. split; [done|]. split; [intros a; by rewrite T6|]. split; [done|].
      unfold synced. eapply holding_ext; [exact H6|]. intros a _. by rewrite P6.
  - rewrite move_eq, C5. assert (forall b, move (sPos s) tail (sPos s tail) b = sPos s b) as Emv. { intros b. unfold move. destruct (decide (b = tail)) as [->|]; done. }
    destruct (holding_add M cap HM (bGen B) (bLens B) cut n (bf_pos B F) Hc HG atoms (without atoms tail) l1 (sPos s) tail (sPos s tail) Hl1) as (l' & -> & Hl').
    + rewrite without_in. tauto.
    + intros b. rewrite without_in. destruct (decide (b = tail)) as [->|]; [|tauto]. split; [by right|done].
    + done.
    + by apply Hprim.
    + intros Hx. apply (Hcr 0%nat ltac:(lia)). eapply (crowd_sub M (bGen B) n atoms atoms); [done| |exact Hx]. intros b _. rewrite Emv. unfold midway. cbn [firstn]. by rewrite decide_False by apply not_elem_of_nil.
    + cbn [obind]. eexists _, mk3. split; [reflexivity|]. cbn [sPos sTy]. assert (forall b, move (sPos s5) tail (sPos s tail) b = sPos s b) as Em. { intros b. unfold move. destruct (decide (b = tail)) as [->|]; [done|by apply P5]. }
      split; [done|]. split; [done|]. split; [done|]. unfold synced. cbn [sCells sPos]. eapply holding_ext; [exact Hl'|]. intros b _. by rewrite Emv, Em.
Qed.
