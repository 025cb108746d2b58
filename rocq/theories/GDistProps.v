(** Distribution and collection of groups: C30. *)
From Verif Require Import Base Containers Vec3 SpeciesModel SpeciesProofs SimProofs BufferModel DistModel DistProofs DistProps CollModel CollProofs GDistModel GDistSpec GDistProofs.
Local Open Scope nat_scope.

Lemma gdistribute_run N b cap ls ss groups d : gdistributable N b cap ls ss groups -> gdCap d = cap -> gdSize d = 0 -> gdSent d = 0 ->
  exists d', gdistribute N b ls d ss groups = Ok (Some (d', map (fun x => PGS (pgCap x.2) (pgTotal x.2) (groups_on x.1 groups)) (zip ls ss))) /\
    gdCap d' = cap /\ gdSize d' = 0 /\ gdSent d' = 0.
Proof.
  intros [A1 A2 [A3 A3'] A4 A5 A6 A7 [A8 A9]] Hc Hs He.
  assert (HR : forall s, s ∈ ls -> forall g, g ∈ groups -> Forall (fun i => (0 <= i < Z.of_nat (psTotal s))%Z) (gpAtoms g)).
  { intros s Hin g Hg. apply Forall_forall. intros i Hi. by apply (A5 g i s). }
  destruct ls as [|l0 ls']; [done|]. destruct ss as [|s0 ss']; [done|].
  destruct (A7 0 l0 s0 eq_refl eq_refl) as (E0 & T0 & C0). rewrite decide_True in C0 by done.
  assert (Es : s0 = PGS (pgCap s0) (pgTotal s0) []) by (destruct s0; cbn in *; by subst).
  destruct (master_ok N b l0 groups ltac:(apply HR; by left) A4 cap (pgCap s0) (pgTotal s0) d Hc Hs He A8 A9 T0 ltac:(lia)) as (out & blk & size & HM & Hf & Hcat).
  unfold gdistribute. rewrite <- Es in HM. rewrite HM. cbn [obind gdOut gdStore gdRecv gdSent gdCap].
  set (F := fun x : pstore * pgstore => PGS (pgCap x.2) (pgTotal x.2) (groups_on x.1 groups)).
  rewrite (foldM_collect _ (fun x => Some (F x, csum x.1 groups, []))).
  2:{ intros [l s] Hx. apply elem_of_list_lookup_1 in Hx as (i & Hx). rewrite zip_lookup in Hx.
      destruct (ls' !! i) as [l'|] eqn:Hl; [|done]. destruct (ss' !! i) as [s'|] eqn:Hsi; [|done]. injection Hx as <- <-. cbn [fst snd].
      destruct (A7 (S i) l' s' Hl Hsi) as (Ei & Ti & Ci). rewrite decide_False in Ci by done.
      assert (Es' : s' = PGS (pgCap s') (pgTotal s') []) by (destruct s'; cbn in *; by subst). rewrite Es' at 1.
      unfold F. cbn [fst snd]. apply receive_ok; try done.
      - apply HR. right. apply elem_of_list_lookup. by exists i.
      - lia. }
  cbn [obind app].
  replace (forallb _ (map (fun x => Some (F x, csum x.1 groups, [])) _)) with true.
  2:{ symmetry. apply forallb_forall. intros x Hx. apply in_map_iff in Hx as (y & <- & _). done. }
  replace (omap _ (map (fun x => Some (F x, csum x.1 groups, [])) _)) with (map (fun x => (F x, csum x.1 groups)) (zip ls' ss')).
  2:{ clear. generalize (zip ls' ss'). intros L. induction L as [|x L IH]; [done|]. cbn. by rewrite IH. }
  rewrite !map_map. cbn [fst snd].
  assert (HL : length ls' = length ss') by (cbn in A1; lia).
  assert (Hz : forall (f : pstore -> nat), map (fun x => f x.1) (zip ls' ss') = map f ls').
  { intros f. clear -HL. revert ss' HL. induction ls' as [|l ls IH]; intros [|s ss] HL; try done. rewrite zip_cons2. cbn [map fst]. rewrite IH by (cbn in HL; lia). done. }
  pose proof (total_atoms N (l0 :: ls') groups A3 A3' A6) as HTA. cbn [map] in HTA. rewrite sum_list_cons' in HTA.
  rewrite (Hz (fun s => csum s groups)). unfold check at 1. rewrite bool_decide_true by lia. cbn [obind map].
  pose proof (total_groups N (l0 :: ls') groups A3 A3' A6) as HTG. cbn [map] in HTG. rewrite sum_list_cons' in HTG.
  rewrite !map_map. cbn [pgGroups]. rewrite !sum_list_cons'.
  change (fun x => length (List.filter first_local (pgGroups (F x)))) with (fun x : pstore * pgstore => length (List.filter first_local (groups_on x.1 groups))).
  rewrite (Hz (fun s => length (List.filter first_local (groups_on s groups)))). rewrite HTG. unfold check at 1. rewrite bool_decide_true by done. cbn [obind].
  assert (HV : forall n L, (forall x, x ∈ L -> x.1 ∈ l0 :: ls' /\ exists c t, x.2 = PGS c t (groups_on x.1 groups)) ->
    foldM (fun acc x => let? n := pg_valid x.1 x.2 in Ok (acc + n)) n L = Ok (n + sum_list (map (fun x => csum x.1 groups) L))).
  { intros n L. revert n. induction L as [|x L IH]; intros n HX; [cbn; f_equal; lia|]. cbn [foldM map]. destruct (HX x ltac:(by left)) as (Hin & c & t & Hx). rewrite Hx.
    rewrite valid_store by (by apply HR). cbn [obind]. rewrite IH by (intros y Hy; apply HX; by right). rewrite sum_list_cons'. f_equal. lia. }
  change (fun x : pstore * pgstore => F x) with F. rewrite HV.
  2:{ intros x Hx. apply elem_of_list_lookup_1 in Hx as (i & Hx). rewrite zip_lookup in Hx.
      destruct ((l0 :: ls') !! i) as [l'|] eqn:Hl; [|done]. destruct i as [|i].
      - cbn in Hx, Hl. injection Hx as <-. injection Hl as <-. cbn [fst snd]. split; [by left|eauto].
      - change (ls' !! i = Some l') in Hl. change ((_ :: ?l) !! S i) with (l !! i) in Hx. rewrite list_lookup_fmap, zip_lookup, Hl in Hx. destruct (ss' !! i) as [s'|] eqn:Hsi; [|done].
        cbn in Hx. injection Hx as <-. cbn [fst snd]. split; [right; apply elem_of_list_lookup; by exists i|]. unfold F. cbn. eauto. }
  cbn [obind]. rewrite zip_cons2. cbn [map fst]. rewrite sum_list_cons'.
  replace (map (fun x => csum x.1 groups) (zip ls' (map F (zip ls' ss')))) with (map (fun s => csum s groups) ls').
  2:{ clear -HL. revert ss' HL. induction ls' as [|l ls IH]; intros [|s ss] HL; try done. rewrite zip_cons2. cbn [map]. rewrite zip_cons2. cbn [map fst]. rewrite <- IH by (cbn in HL; lia). done. }
  unfold check. rewrite bool_decide_true by lia. cbn [obind].
  eexists. split; [rewrite zip_cons2; cbn [map]; reflexivity|]. done.
Qed.
Lemma gusable_idle N b cap d : gusable N b cap d -> gdCap d = cap /\ gdSize d = 0 /\ gdSent d = 0.
Proof.
  induction 1 as [s|d ls ss groups d' ss' _ (I1 & I2 & I3) HA HE]; [done|].
  destruct (gdistribute_run _ _ _ _ _ _ d HA I1 I2 I3) as (d2 & HE2 & HI). rewrite HE in HE2. injection HE2 as -> _. done.
Qed.

(** ** C30 *)
(** Every distribution of groups ends on all processors without an exception and without a processor left waiting or a message left over; every processor then has exactly the groups with at least
    one of its atoms, in the order in which they were read, each with pointers to exactly those atoms that are its own. *)
Theorem groups_distributed (N : nat) (b : buffer) (cap : nat) (ls : list pstore) (d : gdist) (ss : list pgstore) (groups : list pgroup) :
  gusable N b cap d -> gdistributable N b cap ls ss groups ->
  exists d' ss', gdistribute N b ls d ss groups = Ok (Some (d', ss')) /\ length ss' = length ls /\
    forall r l s s', ls !! r = Some l -> ss !! r = Some s -> ss' !! r = Some s' ->
      pgCap s' = pgCap s /\ pgTotal s' = pgTotal s /\ pgGroups s' = groups_on l groups.
Proof.
  intros HU HA. destruct (gusable_idle _ _ _ _ HU) as (I1 & I2 & I3).
  destruct (gdistribute_run _ _ _ _ _ _ d HA I1 I2 I3) as (d' & HE & _). eexists d', _. split; [exact HE|]. split.
  - rewrite map_length, zip_with_length, (gd_len _ _ _ _ _ _ HA). lia.
  - intros r l s s' Hl Hs Hs'. rewrite list_lookup_fmap, zip_lookup, Hl, Hs in Hs'. cbn in Hs'. injection Hs' as <-. done.
Qed.
Print Assumptions groups_distributed.

(** What a group says, apart from its pointers. *)
Definition group_data (g : pgroup) : Z * Z * list Z := (gpId g, gpType g, gpAtoms g).

Lemma kept_once N b cap ls ss groups : gdistributable N b cap ls ss groups ->
  map group_data (concat (map (fun l => List.filter first_local (groups_on l groups)) ls)) ≡ₚ map group_data groups.
Proof.
  intros HA. pose proof (gd_N _ _ _ _ _ _ HA) as [HN HL]. pose proof (gd_owner _ _ _ _ _ _ HA) as HO.
  set (f := fun (r : nat) (g : pgroup) => match ls !! r with Some s => first_own s g | None => false end).
  pose proof (filter_parts f (length ls) groups) as HP. feed specialize HP.
  { intros g Hg. pose proof (HL g Hg) as Hl. destruct (gpAtoms g) as [|i t] eqn:Hi; [cbn in Hl; lia|].
    destruct (HO g i Hg ltac:(rewrite Hi; by left)) as (r & s & Hr & Hin & Hu). exists r. split; [by apply lookup_lt_Some in Hr|].
    intros k Hk. unfold f, first_own. rewrite Hi. destruct (ls !! k) as [s'|] eqn:Hs; [|apply lookup_ge_None in Hs; lia].
    unfold own. apply bool_decide_ext. split; [by intros; apply (Hu k s')|intros ->; congruence]. }
  etransitivity; [|exact (Permutation_map group_data HP)]. clear HP.
  match goal with |- ?x ≡ₚ ?y => replace x with y; [done|] end.
  assert (HM : map (fun r => List.filter (f r) groups) (seq 0 (length ls)) = map (fun s => List.filter (first_own s) groups) ls).
  { apply list_eq. intros i. rewrite !list_lookup_fmap. destruct (ls !! i) as [s|] eqn:Hs.
    - rewrite lookup_seq_lt by (by apply lookup_lt_Some in Hs). cbn. f_equal. apply List.filter_ext. intros g. unfold f. by rewrite Hs.
    - rewrite lookup_seq_ge by (by apply lookup_ge_None in Hs). done. }
  rewrite HM. rewrite !concat_map, !map_map. f_equal. apply map_ext. intros s. rewrite first_groups_on, map_map. done.
Qed.
