(** Collection of atoms and groups: C29, and with the distribution of groups C30. *)
From Verif Require Import Base Containers Vec3 OrthoModel SpeciesModel SpeciesProofs SimProofs BufferModel BufferSpec BufferProofs DistModel DistProofs DistProps CollModel CollProofs GDistModel GDistSpec GDistProofs GDistProps.
Local Open Scope nat_scope.

(** A collector that was set up on the master while all other processors have called send: the master gets the items [l] and then null, and all other processors
    return; [stores] are the items of the processors, the master's first. *)
Definition collects {A} (keep : A -> bool) (sz : A -> nat) (bcap pcap rcap : nat) (stores : list (list A)) (l : list A) : Prop :=
  exists c, coll_setup rcap stores = Ok c /\
    exists k, forall n fuel, k <= n -> k <= fuel -> exists c', collect keep sz bcap pcap rcap n fuel c = Ok (Some (l, c')) /\
      Forall (fun o => o = None) (cSlaves c').
Lemma collects_all {A} (keep : A -> bool) sz bcap pcap rcap smax m ss : 0 < pcap -> 0 < rcap -> Forall (roomy keep sz bcap pcap smax) ss ->
  collects keep sz bcap pcap rcap (m :: ss) (List.filter keep m ++ concat (map (List.filter keep) ss)).
Proof.
  intros Hp Hr HF. unfold collects, coll_setup. rewrite bool_decide_false by lia. eexists. split; [done|].
  set (L := length (List.filter keep m ++ concat (map (List.filter keep) ss))). exists (S (weight ss + 1) + S L). intros n fuel Hn Hf.
  destruct (collect_all keep sz bcap pcap rcap smax fuel n m ss Hp Hr HF) as (c & c' & HS & HC & HN & _); [lia|change (L < n); lia|].
  unfold coll_setup in HS. rewrite bool_decide_false in HS by lia. injection HS as <-. eauto.
Qed.

(** ** C29 *)
(** The collector of atoms returns the atoms of all processors in order of rank, each once, with any size of the array on the master and however many blocks the processors need; atoms on the
    other processors mask at most three others each. *)
Theorem atom_collector (h : bool) (b : buffer) (rcap : nat) (m : list patom) (ss : list (list patom)) :
  buffer_state h b -> 0 < rcap -> (forall l a, l ∈ ss -> a ∈ l -> tMask a <= 3) ->
  collects (fun _ => true) (patom_bytes h) (bCap b) (Z.to_nat (bAtomCap b)) rcap (m :: ss) (m ++ concat ss).
Proof.
  intros Hb Hr HM. pose proof (bwf_state _ _ Hb) as HW. destruct (wf_caps _ _ HW) as (Hc & Hc' & _). pose proof (wf_data _ _ HW) as Hd. pose proof (wf_d0 _ _ HW) as Hd0.
  assert (Hall : forall l : list patom, List.filter (fun _ => true) l = l) by (induction l as [|x l IH]; cbn; [done|by rewrite IH]).
  pose proof (collects_all (fun _ => true) (patom_bytes h) (bCap b) (Z.to_nat (bAtomCap b)) rcap (Z.to_nat (atom_size h) - 4) m ss ltac:(lia) Hr) as HC.
  rewrite Hall, (map_ext _ (fun l => l)), map_id in HC by done. apply HC. apply Forall_forall. intros l Hl. split; rewrite Hall.
  - apply Forall_forall. intros a Ha. pose proof (HM l a Hl Ha). unfold patom_bytes, atom_size. destruct h; cbn; lia.
  - set (k := Nat.min _ _). assert (Hk : k <= Z.to_nat (bAtomCap b)) by lia.
    assert (HA : Z.to_nat (atom_size h) = if h then 96 else 84) by (by destruct h). assert (HA' : atom_size h = if h then 96%Z else 84%Z) by (by destruct h).
    rewrite HA. rewrite HA' in Hc'. destruct h; cbn [Nat.sub]; lia.
Qed.
Print Assumptions atom_collector.

(** Buffer::groupCapacity<N>(), Buffer.h:592-599. *)
Definition groupCapacity (b : buffer) (N : nat) : nat := Z.to_nat (bData b) / group_bytes N.
(** The collector of groups returns, in order of rank, the groups whose first atom is a local atom of the processor that has them.  Either
    the data of the buffer is not a whole number of groups, or no processor has as many groups as the buffer can take (see group_collector_refuted). *)
Theorem group_collector (h : bool) (b : buffer) (N rcap : nat) (m : list pgroup) (ss : list (list pgroup)) :
  buffer_state h b -> 0 < rcap -> 0 < groupCapacity b N ->
  (Z.to_nat (bData b) mod group_bytes N <> 0 \/ forall l, l ∈ ss -> length (List.filter first_local l) < groupCapacity b N) ->
  collects first_local (fun _ => group_bytes N) (bCap b) (groupCapacity b N) rcap (m :: ss) (List.filter first_local m ++ concat (map (List.filter first_local) ss)).
Proof.
  intros Hb Hr Hg Hor. pose proof (bwf_state _ _ Hb) as HW. pose proof (wf_data _ _ HW) as Hd. pose proof (wf_d0 _ _ HW) as Hd0.
  apply (collects_all _ _ _ _ _ (group_bytes N)); [done|done|]. apply Forall_forall. intros l Hl. split; [by apply Forall_true|].
  set (n := length _). assert (HG : 0 < group_bytes N) by (unfold group_bytes; lia).
  pose proof (Nat.div_mod (Z.to_nat (bData b)) (group_bytes N) ltac:(lia)) as HD. fold (groupCapacity b N) in HD.
  destruct Hor as [Hm|Hn].
  - assert (Nat.min (groupCapacity b N) n * group_bytes N <= groupCapacity b N * group_bytes N) by (apply Nat.mul_le_mono_r; lia). lia.
  - specialize (Hn l Hl). fold n in Hn. assert (Nat.min (groupCapacity b N) n + 1 <= groupCapacity b N) as Hle by lia.
    apply (Nat.mul_le_mono_r _ _ (group_bytes N)) in Hle. lia.
Qed.
Print Assumptions group_collector.

(** ** C30 *)
(** After a distribution of groups the collector returns every group exactly once. *)
Theorem groups_collected_once (h : bool) (N : nat) (b : buffer) (cap rcap : nat) (ls : list pstore) (d d' : gdist) (ss ss' : list pgstore) (groups : list pgroup) :
  buffer_state h b -> gusable N b cap d -> gdistributable N b cap ls ss groups -> gdistribute N b ls d ss groups = Ok (Some (d', ss')) ->
  0 < rcap -> 0 < groupCapacity b N -> (Z.to_nat (bData b) mod group_bytes N <> 0 \/ length groups < groupCapacity b N) ->
  exists l, collects first_local (fun _ => group_bytes N) (bCap b) (groupCapacity b N) rcap (map pgGroups ss') l /\ map group_data l ≡ₚ map group_data groups.
Proof.
  intros Hb HU HA HE Hr Hg Hor. destruct (groups_distributed N b cap ls d ss groups HU HA) as (d2 & ss2 & HE2 & Hlen & HS). rewrite HE in HE2. injection HE2 as <- <-.
  assert (HM : map pgGroups ss' = map (fun l => groups_on l groups) ls).
  { apply list_eq. intros r. rewrite !list_lookup_fmap. pose proof (gd_len _ _ _ _ _ _ HA) as HL.
    destruct (ls !! r) as [l|] eqn:Hl.
    - pose proof (lookup_lt_Some _ _ _ Hl). destruct (lookup_lt_is_Some_2 ss r ltac:(lia)) as [s Hs]. destruct (lookup_lt_is_Some_2 ss' r ltac:(lia)) as [s' Hs'].
      rewrite Hs'. cbn. f_equal. by apply (HS r l s s').
    - apply lookup_ge_None in Hl. rewrite (lookup_ge_None_2 ss') by lia. done. }
  pose proof (gd_nonempty _ _ _ _ _ _ HA) as Hne. destruct ls as [|l0 ls]; [done|]. rewrite HM. cbn [map].
  eexists. split.
  - apply (group_collector h); [done|done|done|]. destruct Hor as [Hm|Hn]; [by left|right]. intros l Hl.
    apply elem_of_list_In, in_map_iff in Hl as (s & <- & _). rewrite first_groups_on, map_length. pose proof (filter_len (first_own s) groups) as HF.
    assert (length (List.filter (first_own s) groups) <= length groups); [|lia]. clear. induction groups as [|g l IH]; cbn; [lia|]. destruct (first_own s g); cbn; lia.
  - rewrite map_map. apply (kept_once N b cap (l0 :: ls) ss groups HA).
Qed.
Print Assumptions groups_collected_once.
