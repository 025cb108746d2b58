(** Distribution of atoms: C28. *)
From Verif Require Import Base Containers Vec3 OrthoModel OrthoProps DomainModel DomainSpec DomainProps SpeciesModel SpeciesProofs SimProofs BufferModel BufferSpec BufferProofs BufferProps DistModel DistSpec DistProofs.
From Coq Require Import Reals Lra.
Local Open Scope nat_scope.

Lemma foldM_collect {A B} (f : A -> outcome B) (g : A -> B) l acc : (forall x, x ∈ l -> f x = Ok (g x)) ->
  foldM (fun acc x => let? r := f x in Ok (acc ++ [r])) acc l = Ok (acc ++ map g l).
Proof.
  revert acc. induction l as [|x l IH]; intros acc H; cbn [foldM map]; [by rewrite app_nil_r|].
  rewrite H by (by left). cbn [obind]. rewrite IH by (intros y Hy; apply H; by right). by rewrite <- app_assoc.
Qed.
Lemma zip_lookup {A B} (l : list A) (k : list B) i : zip l k !! i = match l !! i, k !! i with Some x, Some y => Some (x, y) | _, _ => None end.
Proof. revert k i. induction l as [|x l IH]; intros [|y k] [|i]; cbn; try done; by destruct (l !! i). Qed.

Lemma filter_NoDup_ids (f : patom -> bool) l : NoDup (map tId l) -> NoDup (map tId (List.filter f l)).
Proof.
  induction l as [|x l IH]; cbn [map List.filter]; [done|]. intros [Hx Hl]%NoDup_cons. destruct (f x); [|by apply IH]. cbn [map].
  apply NoDup_cons. split; [|by apply IH]. intros Hin. apply Hx. apply elem_of_list_In, in_map_iff in Hin as (y & Hy & Hin).
  apply filter_In in Hin as [Hin _]. apply elem_of_list_In, in_map_iff. exists y. done.
Qed.

Lemma parts_sum (f : nat -> list patom) (ss : list pstore) k :
  sum_list (map (fun x => length (f x.1)) (zip (seq k (length ss)) ss)) = length (concat (map f (seq k (length ss)))).
Proof.
  revert k. induction ss as [|s ss IH]; intros k; [done|]. cbn [length seq zip zip_with map concat sum_list fst snd].
  rewrite app_length, <- IH. done.
Qed.

(** The whole distribution for a distributor that is idle. *)
Lemma distribute_run h b dims Ds d ss atoms : grid_ok dims -> buffer_state h b -> domains_of dims Ds -> idle b (n_proc dims) d ->
  distributable Ds ss atoms ->
  exists d' , distribute h b Ds d ss atoms =
    Ok (Some (d', map (fun x => PS (psCap x.2) (psTotal x.2) (List.filter (mineD Ds x.1) (map wrapped atoms))) (zip (seq 0 (n_proc dims)) ss), length atoms)) /\
    idle b (n_proc dims) d'.
Proof.
  intros Hg Hb HD HI [A1 A2 A3 A4 A5]. pose proof (n_proc_pos _ Hg) as Hn. pose proof (proj1 HD) as HlD.
  set (n := n_proc dims) in *. set (W := map wrapped atoms).
  assert (HW : forall a, a ∈ W -> exists r, r < n /\ forall k D, Ds !! k = Some D ->
    ownerRank D (tPos a) = Ok (Z.of_nat r) /\ mineD Ds k a = bool_decide (k = r) /\ (mineD Ds k a = true -> in_bounds D a = true)).
  { intros a Ha. apply (owner_fact dims); [done|done|]. apply elem_of_list_In, in_map_iff in Ha as (y & <- & Hy). apply wrapped_in_cell, A1. by apply elem_of_list_In. }
  assert (Hat : forall k D, Ds !! k = Some D -> atoms_of D atoms = List.filter (mineD Ds k) W).
  { intros k D Hk. unfold atoms_of. apply List.filter_ext. intros a. unfold mineD. by rewrite Hk. }
  destruct Ds as [|D0 Ds']; [cbn in HlD; lia|]. destruct ss as [|s0 ss']; [done|].
  destruct (A5 0 D0 s0 eq_refl eq_refl) as (E0 & C0 & T0). rewrite (Hat 0 D0 eq_refl) in C0.
  assert (Es : s0 = PS (psCap s0) (psTotal s0) []) by (destruct s0; cbn in *; by subst).
  destruct (master_run h b n (mineD (D0 :: Ds')) (psCap s0) (psTotal s0) D0 d atoms) as (d' & HM & HI' & Hcs & Hres & Hstore & Hsum & Hstr);
    [done|done|done| |done|exact C0|].
  { intros a Ha. split; [by apply A3|]. split; [by apply T0|]. destruct (HW (wrapped a)) as (r & Hr & HO).
    { apply elem_of_list_In, in_map_iff. exists a. split; [done|by apply elem_of_list_In]. }
    exists r. split; [apply (HO 0 D0 eq_refl)|]. split; [done|]. intros k Hk.
    destruct (lookup_lt_is_Some_2 (D0 :: Ds') k ltac:(lia)) as [D Hd]. by apply (HO k D Hd). }
  fold W in Hstore, Hsum, Hstr.
  exists d'. unfold distribute. rewrite Es at 1. rewrite HM. cbn [obind].
  set (g := fun x : nat * (domain * pstore) => PS (psCap x.2.2) (psTotal x.2.2) (List.filter (mineD (D0 :: Ds') x.1) W)).
  rewrite (foldM_collect _ (fun x => Some (g x, []))).
  2:{ intros [r [D s]] Hx. cbn [fst snd]. apply elem_of_list_lookup_1 in Hx as (i & Hx). rewrite zip_lookup, zip_lookup in Hx.
    destruct (seq 1 (qGrid d' - 1) !! i) as [r'|] eqn:Hi; [|done]. apply lookup_seq in Hi as [-> Hi]. rewrite (i_grid _ _ _ HI') in Hi.
    destruct (Ds' !! i) as [D'|] eqn:HDi; [|done]. destruct (ss' !! i) as [s'|] eqn:Hsi; [|done]. injection Hx as <- <- <-.
    destruct (A5 (S i) D' s' HDi Hsi) as (Ei & Ci & Ti). rewrite (Hat (S i) D' HDi) in Ci.
    destruct (Hstr (S i) ltac:(lia)) as ((pks & l & Hpl & Hf) & Hcon). unfold g. cbn [fst snd]. rewrite <- Hcon.
    change (1 + i) with (S i). rewrite Hpl in *.
    rewrite receive_run; rewrite ?Ei, ?Hcon; cbn [app]; try done.
    - apply Forall_forall. intros a Ha. apply elem_of_list_In, filter_In in Ha as [Ha Hma]. apply elem_of_list_In in Ha.
      destruct (HW a Ha) as (r & Hr & HO). destruct (HO (S i) D' HDi) as (O1 & O2 & _). rewrite O1. rewrite O2 in Hma.
      apply bool_decide_eq_true in Hma as <-. done.
    - apply filter_NoDup_ids. unfold W. rewrite map_map. done.
    - apply Forall_forall. intros a Ha. apply elem_of_list_In, filter_In in Ha as [Ha _]. apply in_map_iff in Ha as (y & <- & Hy).
      cbn [wrapped tId]. apply Ti. by apply elem_of_list_In. }
  cbn [obind app]. 
  replace (forallb _ (map (fun x => Some (g x, [])) _)) with true.
  2:{ symmetry. apply forallb_forall. intros x Hx. apply in_map_iff in Hx as (y & <- & _). done. }
  replace (omap _ (map (fun x => Some (g x, [])) _)) with (map g (zip (seq 1 (qGrid d' - 1)) (zip Ds' ss'))).
  2:{ clear. generalize (zip (seq 1 (qGrid d' - 1)) (zip Ds' ss')). intros L. induction L as [|x L IH]; [done|]. cbn. by rewrite IH. }
  set (G := map g (zip (seq 1 (qGrid d' - 1)) (zip Ds' ss'))).
  assert (HG : qStore d' :: G =
    map (fun x => PS (psCap x.2) (psTotal x.2) (List.filter (mineD (D0 :: Ds') x.1) W)) (zip (seq 0 n) (s0 :: ss'))).
  { rewrite Hstore. replace n with (S (n - 1)) by lia. cbn [seq zip zip_with map fst snd]. f_equal. unfold G. rewrite (i_grid _ _ _ HI').
    assert (HL : n - 1 = length Ds') by (cbn in HlD; lia). rewrite HL. assert (HL' : length ss' = length Ds') by (cbn in A4; lia). clear -HL' g.
    unfold g. generalize 1. revert ss' HL'. generalize W (mineD (D0 :: Ds')). intros W' f. induction Ds' as [|D Ds IH]; intros [|s ss] HL k; try done.
    cbn [length seq zip zip_with map fst snd]. f_equal. apply IH. cbn in HL. lia. }
  assert (Htot : sum_list (map (fun s => length (psAtoms s)) (qStore d' :: G)) = length atoms).
  { rewrite HG, map_map. cbn [psAtoms].
    pose proof (filter_parts (mineD (D0 :: Ds')) n W) as HP. feed specialize HP.
    { intros a Ha. destruct (HW a Ha) as (r & Hr & HO). exists r. split; [done|]. intros k Hk.
      destruct (lookup_lt_is_Some_2 (D0 :: Ds') k ltac:(lia)) as [D Hd]. by apply (HO k D Hd). }
    apply Permutation_length in HP. replace (length atoms) with (length W) by (unfold W; by rewrite map_length). rewrite <- HP.
    rewrite <- HlD, <- A4. apply (parts_sum (fun r => List.filter (mineD (D0 :: Ds') r) W)). }
  rewrite Htot. unfold dist_post. unfold check at 1. rewrite bool_decide_true by done. cbn [obind]. unfold check at 1. rewrite bool_decide_true by done.
  cbn [obind]. unfold check at 1. rewrite bool_decide_true by (rewrite Hstore; cbn [psAtoms]; lia). cbn [obind].
  assert (Hbd : forall k D, (D0 :: Ds') !! k = Some D -> forallb (in_bounds D) (List.filter (mineD (D0 :: Ds') k) W) = true).
  { intros k D Hk. apply forallb_forall. intros a Ha. apply filter_In in Ha as [Ha Hma]. apply elem_of_list_In in Ha.
    destruct (HW a Ha) as (r & Hr & HO). by apply (HO k D Hk). }
  unfold dist_validate_master. unfold check at 1. rewrite bool_decide_true by (rewrite Hstore; cbn [psAtoms]; lia). cbn [obind].
  rewrite Hstore. cbn [psAtoms]. rewrite (Hbd 0 D0 eq_refl). cbn [check obind]. rewrite <- Hstore.
  assert (HV : foldM (fun (_ : ()) (x : domain * pstore) => let? _ := dist_validate x.1 x.2 in Ok ()) () (zip Ds' G) = Ok ()).
  { assert (HVi : forall x, x ∈ zip Ds' G -> dist_validate x.1 x.2 = Ok 0).
    { intros [D s] Hx. apply elem_of_list_lookup_1 in Hx as (i & Hx). rewrite zip_lookup in Hx.
      destruct (Ds' !! i) as [D'|] eqn:HDi; [|done]. destruct (G !! i) as [s'|] eqn:Hsi; [|done]. injection Hx as <- <-.
      unfold G in Hsi. rewrite list_lookup_fmap in Hsi. destruct (zip _ _ !! i) as [[r [D'' s'']]|] eqn:Hz; [|done]. injection Hsi as <-.
      rewrite zip_lookup in Hz. destruct (seq _ _ !! i) as [r'|] eqn:Hi; [|done]. apply lookup_seq in Hi as [-> _].
      destruct (zip _ _ !! i); [|done]. injection Hz as <- _. unfold dist_validate, g. cbn [psAtoms fst snd]. rewrite (Hbd (S i) D' HDi). done. }
    revert HVi. generalize (zip Ds' G). clear. intros L HV. induction L as [|x L IH]; [done|]. cbn [foldM]. rewrite HV by (by left). cbn [obind].
    apply IH. intros y Hy. apply HV. by right. }
  rewrite HV. cbn [obind]. rewrite HG. done.
Qed.

Lemma usable_idle h b dims Ds d : grid_ok dims -> buffer_state h b -> domains_of dims Ds -> usable h b dims Ds d -> idle b (n_proc dims) d.
Proof.
  intros Hg Hb HD. pose proof (n_proc_pos _ Hg) as Hn. pose proof (send_pos _ _ Hb) as Hs. induction 1 as [c m s|d ss atoms d' ss' k _ IH HA HE].
  - unfold dist_new. set (cap := if decide _ then _ else _). split; rec; try done.
    + unfold cap. destruct (decide _); [nia|lia].
    + by rewrite map_length, seq_length.
  - destruct (distribute_run h b dims Ds d ss atoms Hg Hb HD IH HA) as (d2 & HE2 & HI). rewrite HE in HE2. by injection HE2 as -> _ _.
Qed.

(** ** C28 *)
(** Every distribution ends, on all processors, without an exception and without a processor left waiting or a message left over; every
    processor then has the atoms of its own domain, wrapped into the cell, in the order in which they were read; validate returns their
    number.  This holds for every capacity of the cache, for a new distributor and for one that was used before. *)
Theorem distributor_delivers (h : bool) (b : buffer) (dims : vec3 Z) (Ds : list domain) (d : distr) (ss : list pstore) (atoms : list patom) :
  grid_ok dims -> buffer_state h b -> domains_of dims Ds -> usable h b dims Ds d -> distributable Ds ss atoms ->
  exists d' ss', distribute h b Ds d ss atoms = Ok (Some (d', ss', length atoms)) /\ length ss' = length Ds /\
    forall r D s s', Ds !! r = Some D -> ss !! r = Some s -> ss' !! r = Some s' ->
      psCap s' = psCap s /\ psTotal s' = psTotal s /\ psAtoms s' = atoms_of D atoms.
Proof.
  intros Hg Hb HD HU HA. pose proof (usable_idle _ _ _ _ _ Hg Hb HD HU) as HI.
  destruct (distribute_run h b dims Ds d ss atoms Hg Hb HD HI HA) as (d' & HE & _). eexists d', _. split; [exact HE|].
  pose proof (proj1 HD) as HlD. pose proof (da_len _ _ _ HA) as Hls. split.
  - rewrite map_length, zip_with_length, seq_length. lia.
  - intros r D s s' Hr Hs Hs'. rewrite list_lookup_fmap, zip_lookup, Hs in Hs'.
    destruct (seq 0 (n_proc dims) !! r) as [k|] eqn:Hk; [|done]. apply lookup_seq in Hk as [-> _]. cbn in Hs'. injection Hs' as <-. cbn [psCap psTotal psAtoms].
    split; [done|]. split; [done|]. unfold atoms_of. apply List.filter_ext. intros a. unfold mineD. by rewrite Hr.
Qed.
Print Assumptions distributor_delivers.
(** Together they have every atom exactly once. *)
Theorem distributor_once (h : bool) (b : buffer) (dims : vec3 Z) (Ds : list domain) (d d' : distr) (ss ss' : list pstore) (atoms : list patom) (k : nat) :
  grid_ok dims -> buffer_state h b -> domains_of dims Ds -> usable h b dims Ds d -> distributable Ds ss atoms ->
  distribute h b Ds d ss atoms = Ok (Some (d', ss', k)) -> concat (map psAtoms ss') ≡ₚ map wrapped atoms.
Proof.
  intros Hg Hb HD HU HA HE. pose proof (usable_idle _ _ _ _ _ Hg Hb HD HU) as HI.
  destruct (distribute_run h b dims Ds d ss atoms Hg Hb HD HI HA) as (d2 & HE2 & _). rewrite HE in HE2. injection HE2 as -> -> ->.
  etransitivity; [|apply (filter_parts (mineD Ds) (n_proc dims))].
  - rewrite map_map. cbn [psAtoms].
    assert (HLs : length ss = n_proc dims) by (rewrite (da_len _ _ _ HA); apply HD). rewrite <- HLs. clear.
    replace (map _ (zip (seq 0 (length ss)) ss)) with (map (fun r => List.filter (mineD Ds r) (map wrapped atoms)) (seq 0 (length ss))); [done|].
    generalize (map wrapped atoms) (mineD Ds) 0. intros W f. induction ss as [|s ss IH]; intros k; [done|]. cbn. by rewrite <- IH.
  - intros a Ha. apply elem_of_list_In, in_map_iff in Ha as (y & <- & Hy).
    destruct (owner_fact dims Ds (wrapped y) Hg HD) as (r & Hr & HO). { apply wrapped_in_cell, (da_pos _ _ _ HA). by apply elem_of_list_In. }
    exists r. split; [done|]. intros i Hi. destruct (lookup_lt_is_Some_2 Ds i ltac:(rewrite (proj1 HD); done)) as [D HDi]. by apply (HO i D HDi).
Qed.
Print Assumptions distributor_once.
