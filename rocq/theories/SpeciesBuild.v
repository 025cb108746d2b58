(** The tables made by the builders, and what the readers accept. *)
From Verif Require Import Base SpeciesModel SpeciesSpec SpeciesProofs.
Local Open Scope Z_scope.

Lemma foldM_ext {A S} (f g : S -> A -> outcome S) l s :
  (forall s x, x ∈ l -> f s x = g s x) -> foldM f s l = foldM g s l.
Proof.
  revert s. induction l as [|x l IH]; intros s H; cbn [foldM]; [done|].
  rewrite H by left. destruct (g s x); cbn [obind]; [|done|done]. apply IH. intros. apply H. by right.
Qed.

(** * The atoms of a group in a chain and in a ring *)

Definition lin (k : nat) (i : Z) : list Z := map (fun j => i + j) (seqZ 0 (Z.of_nat k)).
Definition rng (n : Z) (k : nat) (i : Z) : list Z := map (fun j => (i + j) mod n) (seqZ 0 (Z.of_nat k)).

Lemma lin_elem k i a : a ∈ lin k i <-> i <= a < i + Z.of_nat k.
Proof.
  unfold lin. rewrite elem_of_list_fmap. setoid_rewrite elem_of_seqZ. split.
  - intros (j & -> & ?). lia.
  - intros ?. exists (a - i). lia.
Qed.
Lemma lin_ok k n i : 0 <= i < n -> length (lin k i) = k /\ NoDup (lin k i) /\
  forall a, a ∈ lin k i -> 0 <= a < n + Z.of_nat k - 1.
Proof.
  intros. split; [unfold lin; rewrite map_length, seqZ_length; lia|]. split.
  - apply NoDup_fmap_2_strong; [intros; lia|apply NoDup_seqZ].
  - intros a Ha. apply lin_elem in Ha. lia.
Qed.
Lemma incl_length (l1 l2 : list Z) : NoDup l1 -> (forall x, x ∈ l1 -> x ∈ l2) -> (length l1 <= length l2)%nat.
Proof.
  intros Hn H. apply List.NoDup_incl_length; [by apply NoDup_ListNoDup|].
  intros x Hx. apply elem_of_list_In. apply H. by apply elem_of_list_In.
Qed.
Lemma lin_count k n a : (length (containing (lin k) n a) <= k)%nat.
Proof.
  etrans; [apply (incl_length _ (seqZ (a - Z.of_nat k + 1) (Z.of_nat k)))|].
  - apply NoDup_containing.
  - intros b Hb. apply elem_of_containing in Hb as [_ Hb]. apply lin_elem in Hb. apply elem_of_seqZ. lia.
  - rewrite seqZ_length. lia.
Qed.
Lemma rng_ok n k i : 0 < n -> Z.of_nat k <= n -> length (rng n k i) = k /\ NoDup (rng n k i) /\
  forall a, a ∈ rng n k i -> 0 <= a < n.
Proof.
  intros Hn Hk. split; [unfold rng; rewrite map_length, seqZ_length; lia|]. split.
  - apply NoDup_fmap_2_strong; [|apply NoDup_seqZ]. intros x y Hx Hy Heq.
    apply elem_of_seqZ in Hx, Hy.
    pose proof (Z.div_mod (i + x) n ltac:(lia)) as H1. pose proof (Z.div_mod (i + y) n ltac:(lia)) as H2.
    rewrite Heq in H1. assert ((i + x) / n = (i + y) / n \/ (i + x) / n <> (i + y) / n) as [E|E] by lia; nia.
  - intros a Ha. unfold rng in Ha. apply elem_of_list_fmap in Ha as (j & -> & _). apply Z.mod_pos_bound. lia.
Qed.
Lemma rng_count n k a : 0 < n -> 0 <= a < n -> (length (containing (rng n k) n a) <= k)%nat.
Proof.
  intros Hn Ha. etrans; [apply (incl_length _ (map (fun j => (a - j) mod n) (seqZ 0 (Z.of_nat k))))|].
  - apply NoDup_containing.
  - intros b Hb. apply elem_of_containing in Hb as [Hb Hin]. unfold rng in Hin.
    apply elem_of_list_fmap in Hin as (j & Hj & Hjs). apply elem_of_list_fmap. exists j. split; [|done].
    rewrite Hj, Zminus_mod_idemp_l. replace (b + j - j) with b by lia. by rewrite Z.mod_small by lia.
  - rewrite map_length, seqZ_length. lia.
Qed.

Lemma lin2 i : lin 2 i = [i; i + 1].
Proof. change (lin 2 i) with [i + 0; i + 1]. by rewrite Z.add_0_r. Qed.
Lemma lin3 i : lin 3 i = [i; i + 1; i + 2].
Proof. change (lin 3 i) with [i + 0; i + 1; i + 2]. by rewrite Z.add_0_r. Qed.
Lemma lin4 i : lin 4 i = [i; i + 1; i + 2; i + 3].
Proof. change (lin 4 i) with [i + 0; i + 1; i + 2; i + 3]. by rewrite Z.add_0_r. Qed.
Lemma rng2 n i : 0 <= i < n -> rng n 2 i = [i; (i + 1) mod n].
Proof. intros. change (rng n 2 i) with [(i + 0) mod n; (i + 1) mod n]. by rewrite Z.add_0_r, (Z.mod_small i). Qed.
Lemma rng3 n i : 0 <= i < n -> rng n 3 i = [i; (i + 1) mod n; (i + 2) mod n].
Proof. intros. change (rng n 3 i) with [(i + 0) mod n; (i + 1) mod n; (i + 2) mod n]. by rewrite Z.add_0_r, (Z.mod_small i). Qed.
Lemma rng4 n i : 0 <= i < n -> rng n 4 i = [i; (i + 1) mod n; (i + 2) mod n; (i + 3) mod n].
Proof. intros. change (rng n 4 i) with [(i + 0) mod n; (i + 1) mod n; (i + 2) mod n; (i + 3) mod n]. by rewrite Z.add_0_r, (Z.mod_small i). Qed.

(** * Builders *)

Lemma alloc_atoms_Ok n : 0 < n -> alloc_atoms n [] = Ok (tab n (fun _ => -1)).
Proof. intros. unfold alloc_atoms. rewrite bool_decide_eq_true_2 by done. cbn [check obind]. by rewrite replicate_tab. Qed.
Lemma alloc_groups_Ok k nAtom n : 0 < nAtom -> 0 <= n ->
  alloc_groups k nAtom n gt_new = Ok (GT n (replicate (Z.to_nat n) (sg_new k)) (replicate (Z.to_nat nAtom) [])).
Proof.
  intros. unfold alloc_groups. rewrite !bool_decide_eq_true_2 by done. cbn. case_decide; [done|].
  assert (n = 0) as -> by lia. done.
Qed.

Lemma set_types n (f : Z -> Z) g : 0 <= n -> foldM (fun ts i => zset ts i (f i)) (tab n g) (seqZ 0 n) = Ok (tab n f).
Proof.
  intros Hn.
  assert (H : forall m : nat, Z.of_nat m <= n ->
    foldM (fun ts i => zset ts i (f i)) (tab n g) (seqZ 0 (Z.of_nat m)) =
    Ok (tab n (fun i => if decide (i < Z.of_nat m) then f i else g i))).
  { induction m as [|m IH]; intros Hm.
    - change (seqZ 0 (Z.of_nat 0)) with (@nil Z). cbn [foldM]. f_equal. apply tab_ext. intros.
      by rewrite decide_False by lia.
    - replace (Z.of_nat (S m)) with (Z.of_nat m + 1) by lia. rewrite seqZ_S, foldM_app, IH by lia.
      cbn [obind foldM]. rewrite zset_tab by lia. cbn [obind]. f_equal. apply tab_ext. intros i Hi.
      repeat case_decide; subst; try done; try lia. }
  specialize (H (Z.to_nat n)). rewrite Z2Nat.id in H by lia. rewrite H by lia. f_equal. apply tab_ext.
  intros. by rewrite decide_True by lia.
Qed.

Lemma built_0 k nAtom atoms ty :
  GT 0 (replicate (Z.to_nat 0) (sg_new k)) (replicate (Z.to_nat nAtom) []) = built nAtom 0 atoms ty.
Proof. unfold built. rewrite !replicate_tab. done. Qed.

Lemma make_lin k M n ty : (k <= M)%nat -> (1 <= k)%nat -> Z.of_nat k - 1 <= n ->
  foldM (fun g i => make_group M g i (lin k i) (ty i))
    (GT (n + 1 - Z.of_nat k) (replicate (Z.to_nat (n + 1 - Z.of_nat k)) (sg_new k)) (replicate (Z.to_nat n) []))
    (seqZ 0 (n + 1 - Z.of_nat k)) = Ok (built n (n + 1 - Z.of_nat k) (lin k) ty).
Proof.
  intros HM Hk Hn. apply make_loop; [lia| |].
  - intros i Hi. destruct (lin_ok k _ i Hi) as (_ & ? & Hr). split; [done|]. intros a Ha. specialize (Hr a Ha). lia.
  - intros a _. pose proof (lin_count k (n + 1 - Z.of_nat k) a). lia.
Qed.
Lemma make_rng k M n ty : (k <= M)%nat -> 0 < n -> Z.of_nat k <= n ->
  foldM (fun g i => make_group M g i (rng n k i) (ty i))
    (GT n (replicate (Z.to_nat n) (sg_new k)) (replicate (Z.to_nat n) [])) (seqZ 0 n) = Ok (built n n (rng n k) ty).
Proof.
  intros HM Hn Hk. apply make_loop; [lia| |].
  - intros i Hi. by destruct (rng_ok n k i Hn Hk).
  - intros a Ha. pose proof (rng_count n k a Hn Ha). lia.
Qed.

Definition linear_sp (cap n nA nD : Z) (tA tB tG tD : Z -> Z) : species :=
  SP (-1) cap n (tab n tA) (built n (n - 1) (lin 2) tB) (built n nA (lin 3) tG) (built n nD (lin 4) tD).

Definition nangle (hA n : Z) : Z := if decide (hA = 0) then 0 else n - 2.
Definition ndihedral (hD n : Z) : Z := if decide (hD = 0) then 0 else n - 3.

Ltac by_nangle := unfold nangle, ndihedral; match goal with |- context [decide ?P] => destruct (decide P) end; [lia|];
  match goal with H1 : ?x <> 0, H : ?x <> 0 -> _ |- _ => specialize (H H1); lia end.

Lemma build_linear_Ok cap n hA hD tA tB tG tD :
  2 <= n -> (hA <> 0 -> 3 <= n) -> (hD <> 0 -> 4 <= n) ->
  build_linear cap n (n - 1) (nangle hA n) (ndihedral hD n) hA hD tA tB tG tD =
  Ok (linear_sp cap n (nangle hA n) (ndihedral hD n) tA tB tG tD).
Proof.
  intros Hn HA HD. unfold build_linear. rewrite !(bool_decide_eq_true_2 (2 <= n)) by done.
  rewrite (bool_decide_eq_true_2 (n - 1 = n - 1)) by done. cbn [check obind].
  assert (EA : bool_decide (hA = 0) || bool_decide (nangle hA n = n - 2) = true).
  { unfold nangle. case_decide; [by rewrite bool_decide_eq_true_2 by done|].
    apply orb_true_intro. right. by apply bool_decide_eq_true. }
  rewrite EA. cbn [check obind].
  assert (ED : bool_decide (hD = 0) || (if decide (3 < n) then bool_decide (ndihedral hD n = n - 3) else bool_decide (ndihedral hD n = 0)) = true).
  { unfold ndihedral. destruct (decide (hD = 0)); [by rewrite bool_decide_eq_true_2 by done|].
    apply orb_true_intro. right. rewrite decide_True by lia. by apply bool_decide_eq_true. }
  rewrite ED. cbn [check obind].
  assert (0 <= nangle hA n) by by_nangle.
  assert (0 <= ndihedral hD n) by by_nangle.
  rewrite alloc_atoms_Ok, !alloc_groups_Ok by lia. cbn [obind].
  rewrite set_types by lia. cbn [obind].
  rewrite (foldM_ext _ (fun g i => make_group 4 g i (lin 2 i) (tB i))) by (intros; by rewrite lin2).
  pose proof (make_lin 2 4 n tB) as HB. replace (n + 1 - Z.of_nat 2) with (n - 1) in HB by lia.
  rewrite HB by lia. cbn [obind].
  assert (EG : (if decide (hA = 0) then Ok (GT (nangle hA n) (replicate (Z.to_nat (nangle hA n)) (sg_new 3)) (replicate (Z.to_nat n) [])) else
             foldM (fun g i => make_group 18 g i [i; i + 1; i + 2] (tG i))
              (GT (nangle hA n) (replicate (Z.to_nat (nangle hA n)) (sg_new 3)) (replicate (Z.to_nat n) [])) (seqZ 0 (nangle hA n)))
           = Ok (built n (nangle hA n) (lin 3) tG)).
  { unfold nangle. destruct (decide (hA = 0)).
    - by rewrite (built_0 3 n (lin 3) tG).
    - rewrite (foldM_ext _ (fun g i => make_group 18 g i (lin 3 i) (tG i))) by (intros; by rewrite lin3).
      pose proof (make_lin 3 18 n tG) as HG. replace (n + 1 - Z.of_nat 3) with (n - 2) in HG by lia.
      apply HG; lia. }
  rewrite EG. cbn [obind].
  assert (EDD : (if decide (hD = 0) then Ok (GT (ndihedral hD n) (replicate (Z.to_nat (ndihedral hD n)) (sg_new 4)) (replicate (Z.to_nat n) [])) else
             foldM (fun g i => make_group 72 g i [i; i + 1; i + 2; i + 3] (tD i))
              (GT (ndihedral hD n) (replicate (Z.to_nat (ndihedral hD n)) (sg_new 4)) (replicate (Z.to_nat n) [])) (seqZ 0 (ndihedral hD n)))
           = Ok (built n (ndihedral hD n) (lin 4) tD)).
  { unfold ndihedral. destruct (decide (hD = 0)).
    - by rewrite (built_0 4 n (lin 4) tD).
    - rewrite (foldM_ext _ (fun g i => make_group 72 g i (lin 4 i) (tD i))) by (intros; by rewrite lin4).
      pose proof (make_lin 4 72 n tD) as HG. replace (n + 1 - Z.of_nat 4) with (n - 3) in HG by lia.
      apply HG; lia. }
  rewrite EDD. done.
Qed.

Definition ring_sp (cap n : Z) (tA tB tG tD : Z -> Z) : species :=
  SP (-1) cap n (tab n tA) (built n n (rng n 2) tB) (built n n (rng n 3) tG) (built n n (rng n 4) tD).

Lemma build_ring_Ok cap n tA tB tG tD : 4 <= n ->
  build_ring cap n n n n tA tB tG tD = Ok (ring_sp cap n tA tB tG tD).
Proof.
  intros Hn. unfold build_ring. rewrite (bool_decide_eq_true_2 (3 <= n)) by lia.
  rewrite !(bool_decide_eq_true_2 (n = n)) by done. cbn [check obind].
  rewrite alloc_atoms_Ok, !alloc_groups_Ok by lia. cbn [obind].
  rewrite set_types by lia. cbn [obind].
  rewrite (foldM_ext _ (fun g i => make_group 4 g i (rng n 2 i) (tB i))).
  2: { intros s i Hi. apply elem_of_seqZ in Hi. by rewrite rng2 by lia. }
  rewrite make_rng by lia. cbn [obind].
  rewrite (foldM_ext _ (fun g i => make_group 18 g i (rng n 3 i) (tG i))).
  2: { intros s i Hi. apply elem_of_seqZ in Hi. by rewrite rng3 by lia. }
  rewrite make_rng by lia. cbn [obind].
  rewrite (foldM_ext _ (fun g i => make_group 72 g i (rng n 4 i) (tD i))).
  2: { intros s i Hi. apply elem_of_seqZ in Hi. by rewrite rng4 by lia. }
  rewrite make_rng by lia. done.
Qed.

(** * Consistency of what is built *)

Lemma built_lin_ok k n m ty : (1 <= k)%nat -> 0 <= m -> 0 <= n -> m = 0 \/ m = n + 1 - Z.of_nat k -> topology_ok k n (built n m (lin k) ty).
Proof.
  intros Hk Hm Hn Hc. apply built_ok; [done|done|]. intros i Hi. destruct (lin_ok k m i Hi) as (? & ? & Hr).
  split; [done|]. split; [done|]. intros a Ha. specialize (Hr a Ha). lia.
Qed.
Lemma built_rng_ok k n ty : 0 < n -> Z.of_nat k <= n -> topology_ok k n (built n n (rng n k) ty).
Proof. intros. apply built_ok; [lia|lia|]. intros i Hi. by apply rng_ok. Qed.

Lemma built_chain n m k ty : 0 <= m -> chain_groups m k ty (gtGroups (built n m (lin k) ty)).
Proof.
  intros. unfold chain_groups, built. cbn [gtGroups]. rewrite tab_length. split; [lia|].
  intros i g Hg. apply tab_lookup_Some in Hg as [_ ->]. done.
Qed.
Lemma built_ring n k ty : 0 <= n -> ring_groups n k ty (gtGroups (built n n (rng n k) ty)).
Proof.
  intros. unfold ring_groups, built. cbn [gtGroups]. rewrite tab_length. split; [lia|].
  intros i g Hg. apply tab_lookup_Some in Hg as [_ ->]. done.
Qed.

Lemma linear_sp_ok cap n hA hD tA tB tG tD :
  2 <= n -> (hA <> 0 -> 3 <= n) -> (hD <> 0 -> 4 <= n) ->
  species_ok (linear_sp cap n (nangle hA n) (ndihedral hD n) tA tB tG tD).
Proof.
  intros Hn HA HD. unfold species_ok, linear_sp. cbn [spTypes spNAtom spBond spAngle spDihedral].
  assert (0 <= nangle hA n) by by_nangle.
  assert (0 <= ndihedral hD n) by by_nangle.
  split; [rewrite tab_length; lia|].
  split; [apply built_lin_ok; lia|]. split; apply built_lin_ok; try lia.
  - unfold nangle. case_decide; lia.
  - unfold ndihedral. case_decide; lia.
Qed.
Lemma ring_sp_ok cap n tA tB tG tD : 4 <= n -> species_ok (ring_sp cap n tA tB tG tD).
Proof.
  intros. unfold species_ok, ring_sp. cbn [spTypes spNAtom spBond spAngle spDihedral].
  split; [rewrite tab_length; lia|]. split; [apply built_rng_ok; lia|]. split; apply built_rng_ok; lia.
Qed.

(** * isValid *)

Lemma group_valid_ok k nAtom g : topology_ok k nAtom g -> group_valid k nAtom g = Ok ().
Proof.
  intros H. destruct (decide (0 < gtN g)) as [Hp|Hp].
  - apply group_valid_iff; [|done|done]. apply Forall_lookup. intros i gr Hi. by destruct (topo_groups _ _ _ H i gr Hi).
  - unfold group_valid. by rewrite decide_False by done.
Qed.

(** the accepted species, when every kind of group is either present or was allocated with no groups *)
Definition table_made (k : nat) (nAtom : Z) (g : gtab) : Prop :=
  Forall (fun gr => length (sgAtoms gr) = k) (gtGroups g) /\
  (0 < gtN g \/ g = GT 0 [] (replicate (Z.to_nat nAtom) [])).

Lemma empty_table_ok k nAtom : 0 <= nAtom -> topology_ok k nAtom (GT 0 [] (replicate (Z.to_nat nAtom) [])).
Proof. intros. change (GT 0 [] (replicate (Z.to_nat nAtom) [])) with (GT 0 (replicate (Z.to_nat 0) (sg_new k)) (replicate (Z.to_nat nAtom) [])).
  rewrite (built_0 k nAtom (fun _ => []) (fun _ => 0)). apply built_ok; [lia|lia|]. intros. lia.
Qed.

Lemma table_valid_iff k nAtom g : 0 <= nAtom -> table_made k nAtom g -> group_valid k nAtom g = Ok () <-> topology_ok k nAtom g.
Proof.
  intros Hn [Hk [Hp| ->]]; [by apply group_valid_iff|]. split; [|by intros; apply group_valid_ok].
  intros _. by apply empty_table_ok.
Qed.

Theorem is_valid_iff mut s :
  spTypes s <> [] -> table_made 2 (spNAtom s) (spBond s) -> table_made 3 (spNAtom s) (spAngle s) ->
  table_made 4 (spNAtom s) (spDihedral s) ->
  is_valid mut s = Ok () <-> species_ok s /\ (mut = true \/ forall t, t ∈ spTypes s -> 0 <= t).
Proof.
  intros Ht H2 H3 H4. unfold is_valid, species_ok.
  destruct (spTypes s) as [|t ts] eqn:E; [done|]. rewrite <- E. clear Ht.
  destruct (decide (Z.of_nat (length (spTypes s)) = spNAtom s)) as [Hl|Hl].
  2: { rewrite bool_decide_eq_false_2 by done. cbn. split; [done|]. intros [[? _] _]. done. }
  rewrite bool_decide_eq_true_2 by done. cbn [check obind].
  assert (0 <= spNAtom s) by lia.
  rewrite obind_Ok.
  assert (Hty : check (mut || forallb (fun t => bool_decide (0 <= t)) (spTypes s)) = Ok () <-> mut = true \/ forall t, t ∈ spTypes s -> 0 <= t).
  { rewrite check_Ok, orb_true_iff, forallb_forall. setoid_rewrite <- elem_of_list_In.
    setoid_rewrite bool_decide_eq_true. done. }
  split.
  - intros ([] & Hc & Hv). apply obind_Ok in Hv as ([] & Hb & Hv). apply obind_Ok in Hv as ([] & Ha & Hd).
    rewrite table_valid_iff in Hb, Ha, Hd by done. apply Hty in Hc. done.
  - intros ((_ & Hb & Ha & Hd) & Hc). exists (). split; [by apply Hty|].
    apply obind_Ok. exists (). split; [by apply group_valid_ok|].
    apply obind_Ok. exists (). split; by apply group_valid_ok.
Qed.

Lemma linear_made_valid mut s : spTypes s <> [] -> species_ok s -> (mut = true \/ forall t, t ∈ spTypes s -> 0 <= t) ->
  is_valid mut s = Ok ().
Proof.
  intros Ht (Hl & Hb & Ha & Hd) Hc. unfold is_valid. destruct (spTypes s) as [|t ts] eqn:E; [done|]. rewrite <- E in *.
  rewrite bool_decide_eq_true_2 by done. cbn [check obind].
  apply obind_Ok. exists (). split.
  { rewrite check_Ok, orb_true_iff, forallb_forall. setoid_rewrite <- elem_of_list_In.
    setoid_rewrite bool_decide_eq_true. done. }
  apply obind_Ok. exists (). split; [by apply group_valid_ok|].
  apply obind_Ok. exists (). split; by apply group_valid_ok.
Qed.

(** * What the readers accept *)

Lemma read_ad_Ok n o d : read_ad n o = Ok d ->
  hasA d = default 0 (ogHasA o) /\ nA d = nangle (hasA d) n /\ hasD d = default 0 (ogHasD o) /\ nD d = ndihedral (hasD d) n /\
  (hasA d <> 0 -> 3 <= n /\ typeA d = ogTypeA o) /\ (hasD d <> 0 -> 4 <= n /\ typeD d = ogTypeD o) /\
  (hasA d = 0 -> typeA d = -1) /\ (hasD d = 0 -> typeD d = -1).
Proof.
  unfold read_ad, nangle, ndihedral. intros H.
  apply obind_Ok in H as ([na ta] & HA & H). apply obind_Ok in H as ([nd td] & HD & [= <-]). cbn [hasA nA hasD nD typeA typeD].
  split; [done|]. destruct (decide (default 0 (ogHasA o) = 0)) as [EA|EA].
  - injection HA as <- <-. split; [done|]. split; [done|].
    destruct (decide (default 0 (ogHasD o) = 0)) as [ED|ED].
    + injection HD as <- <-. done.
    + apply obind_Ok in HD as ([] & HD & [= <- <-]). apply check_Ok, bool_decide_eq_true in HD. done.
  - apply obind_Ok in HA as ([] & HA & [= <- <-]). apply check_Ok, bool_decide_eq_true in HA. split; [done|]. split; [done|].
    destruct (decide (default 0 (ogHasD o) = 0)) as [ED|ED].
    + injection HD as <- <-. done.
    + apply obind_Ok in HD as ([] & HD & [= <- <-]). apply check_Ok, bool_decide_eq_true in HD. done.
Qed.

Lemma read_ad_accepts n o : (default 0 (ogHasA o) <> 0 -> 3 <= n) -> (default 0 (ogHasD o) <> 0 -> 4 <= n) ->
  exists d, read_ad n o = Ok d.
Proof.
  intros HA HD. unfold read_ad.
  destruct (decide (default 0 (ogHasA o) = 0)); cbn [obind].
  - destruct (decide (default 0 (ogHasD o) = 0)); cbn [obind]; [eauto|].
    rewrite bool_decide_eq_true_2 by auto. cbn. eauto.
  - rewrite bool_decide_eq_true_2 by auto. cbn [check obind].
    destruct (decide (default 0 (ogHasD o) = 0)); cbn [obind]; [eauto|].
    rewrite bool_decide_eq_true_2 by auto. cbn. eauto.
Qed.

Lemma build_linear_ge2 cap n nB nA nD hA hD tA tB tG tD s :
  build_linear cap n nB nA nD hA hD tA tB tG tD = Ok s -> 2 <= n.
Proof. unfold build_linear. intros H. apply obind_Ok in H as ([] & H & _). by apply check_Ok, bool_decide_eq_true in H. Qed.
