(** Proofs about the distribution of atoms. *)
From Verif Require Import Base Containers Vec3 OrthoModel OrthoProps DomainModel DomainSpec DomainProps SpeciesModel SpeciesProofs SimProofs BufferModel BufferSpec BufferProofs DistModel DistSpec.
From Coq Require Import Reals Lra.
Local Open Scope nat_scope.

Lemma omap_app {A B} (f : A -> option B) l k : omap f (l ++ k) = omap f l ++ omap f k.
Proof. induction l as [|x l IH]; cbn; [done|]. destruct (f x); cbn; by rewrite IH. Qed.
Lemma sum_list_app' l k : sum_list (l ++ k) = sum_list l + sum_list k.
Proof. induction l; cbn; lia. Qed.

Ltac rec := cbn [q_flush q_count q_new qCap qSend qGrid qCache qRes qArr qSizes qMax qCached qSent qNew qBlk qOut qStore].

Section flush.
  Context (h : bool) (b : buffer).
  Lemma flush_run clear rank pre l post d :
    qArr d !! rank = Some (pre ++ map Some l ++ post) -> Forall (fun p => p < length (qCache d)) l ->
    length (qRes d) + length l <= qCap d ->
    (l <> [] -> 16 + sum_list (map (patom_bytes h) (qBlk d ++ omap (fun p => qCache d !! p) l)) <= bCap b) ->
    foldM (flush_one h b clear rank) d (seq (length pre) (length l)) =
    Ok (q_flush d (qCache d) (reverse l ++ qRes d) (<[rank := pre ++ map (fun p => if clear then None else Some p) l ++ post]> (qArr d))
                (qBlk d ++ omap (fun p => qCache d !! p) l)).
  Proof.
    revert pre d. induction l as [|p l IH]; intros pre d Ha Hl Hc Hb; cbn [seq foldM length].
    - cbn [map omap list_omap app]. rewrite app_nil_r. cbn [map app] in Ha. rewrite list_insert_id by done. rewrite reverse_nil. by destruct d.
    - apply Forall_cons in Hl as [Hp Hl]. cbn [length] in Hc.
      destruct (lookup_lt_is_Some_2 _ _ Hp) as [a Hpa].
      assert (Hr : rank < length (qArr d)) by (eapply lookup_lt_Some; eauto).
      unfold flush_one at 1. rewrite (aget_Ok' _ _ _ Ha). cbn [obind map].
      rewrite (aget_Ok' _ _ (Some p)) by (by rewrite lookup_app_r, Nat.sub_diag by lia). cbn [obind].
      rewrite (aget_Ok' _ _ _ Hpa). cbn [obind].
      assert (Hb' : 16 + sum_list (map (patom_bytes h) (qBlk d ++ a :: omap (fun p => qCache d !! p) l)) <= bCap b).
      { specialize (Hb ltac:(done)). cbn [omap list_omap] in Hb. by rewrite Hpa in Hb. }
      rewrite map_app, sum_list_app' in Hb'. cbn [map sum_list] in Hb'.
      unfold pack_atom. rewrite decide_False by (clear -Hb'; cbn in Hb'; lia). cbn [obind].
      unfold stack_push. rewrite decide_True by lia. cbn [obind].
      rewrite aset_Ok' by (rewrite app_length; cbn; lia). cbn [obind]. rewrite aset_Ok' by done. cbn [obind].
      set (o := if clear then None else Some p).
      replace (S (length pre)) with (length (pre ++ [o])) by (rewrite app_length; cbn; lia).
      rewrite IH; cbn [q_flush qArr qCache qRes qCap qBlk].
      + f_equal. unfold q_flush. rec.
        rewrite reverse_cons, list_insert_insert, <- !app_assoc. cbn [omap list_omap]. by rewrite Hpa.
      + rewrite list_lookup_insert by done. f_equal. rewrite insert_app_r_alt by lia. rewrite Nat.sub_diag. cbn. by rewrite <- app_assoc.
      + done.
      + cbn [length]. lia.
      + intros _. rewrite <- app_assoc, map_app, sum_list_app'. cbn in *. lia.
  Qed.
End flush.

Definition qatoms (cache : list patom) (q : list nat) : list patom := omap (fun p => cache !! p) q.
Definition qrow (send : nat) (q : list nat) : list (option nat) := map Some q ++ replicate (send - length q) None.
Definition nlist (o : option nat) : list nat := match o with Some p => [p] | None => [] end.

Lemma bytes_fit h b l : buffer_state h b -> l <> [] -> Forall (fun a => tMask a <= 3) l -> length l <= Z.to_nat (bAtomCap b) ->
  16 + sum_list (map (patom_bytes h) l) <= bCap b.
Proof.
  intros Hs Hl HF Hn. pose proof (bwf_state _ _ Hs) as HW. destruct (wf_caps _ _ HW) as (Hc & Hc' & _). pose proof (wf_data _ _ HW) as Hd.
  assert (HS : (sum_list (map (patom_bytes h) l) + 4 * length l <= length l * Z.to_nat (atom_size h))).
  { clear Hn Hl. induction HF as [|a l Ha HF IH]; [cbn; lia|]. cbn [map sum_list length]. cbn [Nat.mul]. unfold patom_bytes at 1.
    assert (Hz : Z.to_nat (atom_size h) = if h then 96 else 84) by (by destruct h). rewrite Hz in *. cbn in *. destruct h; lia. }
  destruct l as [|a l]; [done|]. cbn [length] in *.
  assert (0 < atom_size h)%Z by (by destruct h).
  assert (Z.of_nat (S (length l)) * atom_size h <= bAtomCap b * atom_size h)%Z by nia.
  assert (Hz : Z.of_nat (S (length l) * Z.to_nat (atom_size h)) = (Z.of_nat (S (length l)) * atom_size h)%Z) by (rewrite Nat2Z.inj_mul, Z2Nat.id by lia; done).
  lia.
Qed.

Lemma sent_to_app {A} r (o1 o2 : list (nat * packet A)) : sent_to r (o1 ++ o2) = sent_to r o1 ++ sent_to r o2.
Proof. unfold sent_to. by rewrite List.filter_app, map_app. Qed.
Lemma sent_to_one {A} r r' (pk : packet A) : sent_to r [(r', pk)] = if decide (r' = r) then [pk] else [].
Proof. unfold sent_to. cbn. case_bool_decide; by destruct (decide (r' = r)). Qed.

Lemma qatoms_length cache q : Forall (fun p => p < length cache) q -> length (qatoms cache q) = length q.
Proof.
  induction 1 as [|p q Hp _ IH]; [done|]. unfold qatoms in *. cbn [omap list_omap]. destruct (lookup_lt_is_Some_2 _ _ Hp) as [a ->]. cbn. by rewrite IH.
Qed.
Lemma qatoms_insert cache p a q : p ∉ q -> qatoms (<[p := a]> cache) q = qatoms cache q.
Proof.
  induction q as [|x q IH]; [done|]. intros [Hx Hq]%not_elem_of_cons. unfold qatoms in *. cbn [omap list_omap].
  rewrite list_lookup_insert_ne by done. by rewrite IH.
Qed.
Lemma concat_insert {A} (Q : list (list A)) i q q' : Q !! i = Some q -> concat (<[i := q']> Q) ++ q ≡ₚ concat Q ++ q'.
Proof.
  intros H. rewrite <- (take_drop_middle _ _ _ H) at 2. rewrite insert_take_drop by (eapply lookup_lt_Some; eauto).
  rewrite !concat_app. cbn [concat]. solve_Permutation.
Qed.

(** The state after the atoms [q] of [rank] were sent. *)
Definition flushed (d : distr) (rank : nat) (q : list nat) (complete : bool) : distr :=
  Dist (qCap d) (qSend d) (qGrid d) (qCache d) (reverse q ++ qRes d) (<[rank := replicate (qSend d) None]> (qArr d)) (<[rank := 0]> (qSizes d))
       (qMax d) (qCached d) (qSent d + length q) (qNew d) [] (qOut d ++ [(rank, (qatoms (qCache d) q, complete))]) (qStore d).

Lemma send_pos h b : buffer_state h b -> 0 < Z.to_nat (bAtomCap b).
Proof. intros Hb. pose proof (wf_caps _ _ (bwf_state _ _ Hb)). lia. Qed.
Lemma concat_length_le {A} (Q : list (list A)) r q : Q !! r = Some q -> length q <= length (concat Q).
Proof. intros H. pose proof (Permutation_length (concat_insert Q r q [] H)) as H'. rewrite !app_length in H'. cbn in H'. lia. Qed.

Section master.
  Context (h : bool) (b : buffer) (n : nat).
  Notation send := (Z.to_nat (bAtomCap b)).
  Record core (d : distr) (Q : list (list nat)) : Prop := {
    c_send : qSend d = send; c_grid : qGrid d = n; c_cap : 0 < qCap d; c_cache : length (qCache d) = qCap d;
    c_len : length Q = n; c_arr : qArr d = map (qrow send) Q; c_sizes : qSizes d = map length Q;
    c_perm : qRes d ++ nlist (qNew d) ++ concat Q ≡ₚ seq 0 (qCap d); c_blk : qBlk d = []; c_Q0 : Q !! 0 = Some [];
    c_cnt : qCached d = qSent d + length (concat Q); c_max : qMax d < n; c_small : Forall (fun q => length q <= send) Q }.
  Lemma core_bound d Q p : core d Q -> p ∈ qRes d ++ nlist (qNew d) ++ concat Q -> p < qCap d.
  Proof. intros HC Hp. rewrite (c_perm _ _ HC) in Hp. apply elem_of_seq in Hp. lia. Qed.
  Lemma core_q d Q r q : core d Q -> Q !! r = Some q -> Forall (fun p => p < length (qCache d)) q.
  Proof.
    intros HC Hq. apply Forall_forall. intros p Hp. rewrite (c_cache _ _ HC). eapply core_bound; [done|].
    apply elem_of_app. right. apply elem_of_app. right. apply elem_of_list_In, in_concat. exists q. split; [|by apply elem_of_list_In].
    apply elem_of_list_In. by eapply elem_of_list_lookup_2.
  Qed.
  Lemma core_nodup d Q : core d Q -> NoDup (qRes d ++ nlist (qNew d) ++ concat Q).
  Proof. intros HC. rewrite (c_perm _ _ HC). apply NoDup_seq. Qed.
  Lemma core_count d Q : core d Q -> length (qRes d) + length (nlist (qNew d)) + length (concat Q) = qCap d.
  Proof. intros HC. pose proof (Permutation_length (c_perm _ _ HC)) as H. rewrite !app_length, seq_length in H. lia. Qed.
  (** Flushing all of a queue. *)
  Lemma flush_core_gen (Hb : buffer_state h b) clear d o Q r q : core (q_new d o (qStore d)) Q -> Q !! r = Some q ->
    Forall (fun a => tMask a <= 3) (qatoms (qCache d) q) ->
    foldM (flush_one h b clear r) d (seq 0 (length q)) =
    Ok (q_flush d (qCache d) (reverse q ++ qRes d) (<[r := map (fun p => if clear then None else Some p) q ++ replicate (send - length q) None]> (qArr d))
                (qatoms (qCache d) q)).
  Proof.
    intros HC Hq HM. pose proof (core_q _ _ _ _ HC Hq) as Hl.
    pose proof (c_blk _ _ HC) as Hblk. pose proof (c_arr _ _ HC) as Harr. pose proof (core_count _ _ HC) as Hcnt.
    cbn [q_new qCap qSend qGrid qCache qRes qArr qSizes qMax qCached qSent qNew qBlk qOut qStore] in *.
    pose proof (flush_run h b clear r [] q (replicate (send - length q) None) d) as HF. cbn [length app] in HF. rewrite HF.
    - f_equal. rewrite Hblk. done.
    - rewrite Harr, list_lookup_fmap, Hq. done.
    - done.
    - pose proof (concat_length_le _ _ _ Hq). lia.
    - intros Hne. rewrite Hblk. cbn [app]. eapply bytes_fit; [done| |done|].
      + destruct q as [|p q]; [done|]. apply Forall_cons in Hl as [Hp _]. cbn. destruct (lookup_lt_is_Some_2 _ _ Hp) as [a ->]. done.
      + fold (qatoms (qCache d) q). rewrite qatoms_length by done. pose proof (Forall_lookup_1 _ _ _ _ (c_small _ _ HC) Hq). done.
  Qed.
  Lemma flush_core (Hb : buffer_state h b) clear d Q r q : core d Q -> Q !! r = Some q -> Forall (fun a => tMask a <= 3) (qatoms (qCache d) q) ->
    foldM (flush_one h b clear r) d (seq 0 (length q)) =
    Ok (q_flush d (qCache d) (reverse q ++ qRes d) (<[r := map (fun p => if clear then None else Some p) q ++ replicate (send - length q) None]> (qArr d))
                (qatoms (qCache d) q)).
  Proof. intros HC. apply (flush_core_gen Hb clear d (qNew d) Q). by destruct d. Qed.
  Lemma flushed_core (Hn : 0 < n) d Q r q f : core d Q -> Q !! r = Some q -> core (flushed d r q f) (<[r := []]> Q).
  Proof.
    intros HC Hq. pose proof (concat_insert _ _ _ [] Hq) as HP. rewrite app_nil_r in HP.
    destruct HC as [H1 H2 H3 H4 H5 H6 H7 H8 H9 H10 H11 H12 H13].
    split; unfold flushed; rec; try done.
    - by rewrite insert_length.
    - rewrite H6, list_fmap_insert. f_equal. unfold qrow. cbn. by rewrite Nat.sub_0_r, H1.
    - rewrite H7, list_fmap_insert. done.
    - rewrite <- H8, <- HP. rewrite reverse_Permutation. solve_Permutation.
    - destruct (decide (r = 0)) as [->|]; [rewrite list_lookup_insert by lia; done|by rewrite list_lookup_insert_ne].
    - rewrite H11. apply Permutation_length in HP. rewrite app_length in HP. lia.
    - apply Forall_insert; [done|cbn; lia].
  Qed.

  Context (mine : nat -> patom -> bool) (scap stot : nat).
  Record holds (d : distr) (Q : list (list nat)) (sofar : list patom) : Prop := {
    t_sent : forall r q, 0 < r -> Q !! r = Some q ->
      concat (map fst (sent_to r (qOut d))) ++ qatoms (qCache d) q = List.filter (mine r) sofar;
    t_store : qStore d = PS scap stot (List.filter (mine 0) sofar);
    t_count : qCached d + length (List.filter (mine 0) sofar) = length sofar;
    t_mask : Forall (fun a => tMask a <= 3) sofar }.
  Definition open_streams (d : distr) : Prop := forall r, Forall (fun pk => pk.2 = false) (sent_to r (qOut d)).
  Lemma q_mask d Q sofar r q : core d Q -> holds d Q sofar -> Q !! r = Some q -> Forall (fun a => tMask a <= 3) (qatoms (qCache d) q).
  Proof.
    intros HC HT Hq. destruct (decide (r = 0)) as [->|Hr].
    - rewrite (c_Q0 _ _ HC) in Hq. injection Hq as <-. constructor.
    - pose proof (t_sent _ _ _ HT r q ltac:(lia) Hq) as HE.
      assert (HF : Forall (fun a => tMask a <= 3) (List.filter (mine r) sofar)).
      { apply Forall_forall. intros x Hx. apply elem_of_list_In, filter_In in Hx as [Hx _]. apply elem_of_list_In in Hx.
        pose proof (t_mask _ _ _ HT) as HM. rewrite Forall_forall in HM. by apply HM. }
      rewrite <- HE in HF. by apply Forall_app in HF as [_ HF].
  Qed.
  Lemma flushed_holds d Q sofar r q f : core d Q -> 0 < r -> Q !! r = Some q -> holds d Q sofar -> holds (flushed d r q f) (<[r := []]> Q) sofar.
  Proof.
    intros HC Hr Hq [H1 H2 H3 H4]. split; try done. intros r' q' Hr' Hq'. unfold flushed; cbn [qOut qCache].
    rewrite sent_to_app, sent_to_one. destruct (decide (r' = r)) as [->|Hne].
    - rewrite list_lookup_insert in Hq' by (eapply lookup_lt_Some; eauto). injection Hq' as <-. rewrite decide_True by done.
      rewrite map_app, concat_app. cbn. rewrite !app_nil_r. by apply H1.
    - rewrite list_lookup_insert_ne in Hq' by done. rewrite decide_False by done. rewrite app_nil_r. by apply H1.
  Qed.
  Lemma row_cleared d Q r q : core d Q -> Q !! r = Some q ->
    map (fun p : nat => None) q ++ replicate (send - length q) None = replicate (A := option nat) (qSend d) None.
  Proof.
    intros HC Hq. rewrite (c_send _ _ HC). pose proof (Forall_lookup_1 _ _ _ _ (c_small _ _ HC) Hq) as Hs. cbn beta in Hs.
    replace (map (fun _ => None) q) with (replicate (A := option nat) (length q) None). 2:{ clear. induction q; cbn; congruence. }
    rewrite <- replicate_add. f_equal. lia.
  Qed.

  Record ready (d : distr) (Q : list (list nat)) : Prop := {
    r_core : core d Q; r_new : qNew d = None; r_lt : Forall (fun q => length q < send) Q;
    r_max : qRes d = [] -> exists q, Q !! qMax d = Some q /\ q <> [] }.

  (** newAtomPtr and the assignment of the client. *)
  Lemma new_write d Q sofar a : buffer_state h b -> 0 < n -> ready d Q -> holds d Q sofar -> open_streams d ->
    exists d1 Q1 p, (let? d := dist_newAtomPtr h b d in dist_write d a) = Ok d1 /\ core d1 Q1 /\ qNew d1 = Some p /\
      qCache d1 !! p = Some a /\ holds d1 Q1 sofar /\ open_streams d1 /\ Forall (fun q => length q < send) Q1.
  Proof.
    intros Hb Hn HR HT HO. pose proof (r_core _ _ HR) as HC.
    (* after the flush, if there is one *)
    assert (HA : exists d0 Q0 p res, core d0 Q0 /\ qNew d0 = None /\ qRes d0 = p :: res /\ holds d0 Q0 sofar /\ open_streams d0 /\
              Forall (fun q => length q < send) Q0 /\
              dist_newAtomPtr h b d = (let? a := aget (qCache d0) p in let? cache := aset (qCache d0) p (pa_clear a) in
                                       Ok (q_new (q_flush d0 cache res (qArr d0) (qBlk d0)) (Some p) (qStore d0)))).
    { unfold dist_newAtomPtr. unfold check at 1. rewrite bool_decide_true by apply HC. cbn [obind].
      unfold check at 1. rewrite bool_decide_true by apply HR. cbn [obind]. destruct (qRes d) as [|p res] eqn:Hres.
      - cbn [length]. rewrite decide_True by done.
        destruct (r_max _ _ HR Hres) as (q & Hq & Hne).
        assert (Hr : qMax d <> 0). { intros E. rewrite E, (c_Q0 _ _ HC) in Hq. congruence. }
        pose proof (Forall_lookup_1 _ _ _ _ (r_lt _ _ HR) Hq) as Hlt. cbn beta in Hlt.
        assert (Hsz : qSizes d !! qMax d = Some (length q)) by (by rewrite (c_sizes _ _ HC), list_lookup_fmap, Hq).
        rewrite (aget_Ok' _ _ _ Hsz). cbn [obind]. rewrite (c_send _ _ HC), Nat.min_l by lia. rewrite Nat.sub_diag, Nat.sub_0_r.
        rewrite (flush_core Hb true d Q _ q HC Hq) by (by eapply q_mask). cbn [obind q_flush qSizes].
        rewrite (aget_Ok' _ _ _ Hsz). cbn [obind]. rewrite aset_Ok' by (by eapply lookup_lt_Some). cbn [obind].
        unfold send_block_to. rec.
        unfold check at 1. rewrite bool_decide_true by (rewrite (c_grid _ _ HC); apply HC). cbn [obind].
        unfold check at 1. rewrite bool_decide_false by done. cbn [negb obind].
        rewrite (row_cleared d Q _ q HC Hq). rec.
        pose proof (flushed_core Hn d Q (qMax d) q false HC Hq) as HC'.
        pose proof (flushed_holds d Q sofar (qMax d) q false HC ltac:(lia) Hq HT) as HT'.
        unfold flushed in HC', HT'. rewrite Hres in *. rewrite app_nil_r in *.
        destruct (reverse q) as [|p res] eqn:Hrev.
        { exfalso. apply Hne. by apply (f_equal reverse) in Hrev; rewrite reverse_involutive in Hrev. }
        cbn [stack_pop obind].
        eexists _, (<[qMax d := []]> Q), p, res. split; [exact HC'|]. cbn [qNew qRes]. split; [apply HR|]. split; [done|]. split; [exact HT'|].
        split. { intros r. cbn [qOut]. rewrite sent_to_app, sent_to_one. apply Forall_app. split; [apply HO|]. destruct (decide _); by repeat constructor. }
        split; [|done]. apply Forall_insert; [apply HR|]. cbn. by eapply send_pos.
      - cbn [length]. rewrite decide_False by done. cbn [obind stack_pop]. rewrite Hres. cbn [stack_pop obind].
        exists d, Q, p, res. repeat (split; [first [done|apply HR]|]). done. }
    destruct HA as (d0 & Q0 & p & res & HC0 & Hnew & Hres & HT0 & HO0 & Hlt0 & ->).
    assert (Hp : p < length (qCache d0)).
    { rewrite (c_cache _ _ HC0). eapply core_bound; [done|]. rewrite Hres. apply elem_of_app. left. by left. }
    destruct (lookup_lt_is_Some_2 _ _ Hp) as [x Hx]. rewrite (aget_Ok' _ _ _ Hx). cbn [obind]. rewrite aset_Ok' by done. cbn [obind].
    unfold dist_write, q_new, q_flush. rec.
    rewrite aset_Ok' by (by rewrite insert_length). cbn [obind]. rewrite list_insert_insert.
    pose proof (core_nodup _ _ HC0) as HN. rewrite Hnew, Hres in HN. cbn [nlist app] in HN. apply NoDup_cons in HN as [HN _].
    eexists _, Q0, p. split; [reflexivity|].
    destruct HC0 as [H1 H2 H3 H4 H5 H6 H7 H8 H9 H10 H11 H12 H13].
    split; [|split; [done|split; [cbn; by rewrite list_lookup_insert|split; [|split; [done|done]]]]].
    - split; cbn; try done. { by rewrite insert_length. } rewrite <- H8, Hnew, Hres. cbn. solve_Permutation.
    - destruct HT0 as [T1 T2 T3 T4]. split; cbn [qOut qCache qStore qCached]; try done. intros r q Hr Hq. rewrite qatoms_insert; [by apply T1|].
      intros Hin. apply HN. apply elem_of_app. right. apply elem_of_list_In, in_concat. exists q. split; [|by apply elem_of_list_In].
      apply elem_of_list_In. by eapply elem_of_list_lookup_2.
  Qed.

  Lemma filter_snoc (f : patom -> bool) l x : List.filter f (l ++ [x]) = List.filter f l ++ (if f x then [x] else []).
  Proof. rewrite List.filter_app. cbn. by destruct (f x). Qed.
  Lemma store_add l (x : patom) : length l < scap -> (0 <= tId x < Z.of_nat stot)%Z -> tId x ∉ map tId l ->
    ps_add (PS scap stot l) x = Ok (PS scap stot (l ++ [x])).
  Proof.
    intros H1 H2 H3. unfold ps_add. cbn [psAtoms psCap psTotal]. unfold check.
    rewrite !bool_decide_true by done. rewrite bool_decide_false by done. done.
  Qed.
  Lemma notin_queue d Q p r q : core d Q -> qNew d = Some p -> Q !! r = Some q -> p ∉ q.
  Proof.
    intros HC Hp Hq Hin. pose proof (core_nodup _ _ HC) as HN. rewrite Hp in HN. cbn in HN.
    apply NoDup_app in HN as (_ & _ & HN). apply NoDup_cons in HN as [HN _]. apply HN.
    apply elem_of_list_In, in_concat. exists q. split; [|by apply elem_of_list_In].
    apply elem_of_list_In. by eapply elem_of_list_lookup_2.
  Qed.

  Lemma add_step D d Q sofar a p r : buffer_state h b -> 0 < n -> core d Q -> qNew d = Some p -> qCache d !! p = Some a ->
    holds d Q sofar -> open_streams d -> Forall (fun q => length q < send) Q ->
    ownerRank D (shiftGen1 (tPos a)) = Ok (Z.of_nat r) -> r < n -> (forall k, k < n -> mine k (wrapped a) = bool_decide (k = r)) -> tMask a <= 3 ->
    (r = 0 -> length (List.filter (mine 0) sofar) < scap /\ (0 <= tId a < Z.of_nat stot)%Z /\ tId a ∉ map tId (List.filter (mine 0) sofar)) ->
    exists d' Q', dist_addAtom h b D d = Ok d' /\ ready d' Q' /\ holds d' Q' (sofar ++ [wrapped a]) /\ open_streams d'.
  Proof.
    intros Hb Hn HC Hnew Hpa HT HO Hlt Hown Hr Hm Hmask Hst.
    assert (Hp : p < length (qCache d)) by (by eapply lookup_lt_Some).
    pose proof (core_count _ _ HC) as Hcnt. rewrite Hnew in Hcnt. cbn [nlist length] in Hcnt.
    unfold dist_addAtom. rewrite Hnew, (aget_Ok' _ _ _ Hpa). cbn [obind]. rewrite aset_Ok' by done. cbn [obind]. cbn [tPos]. rewrite Hown. cbn [obind].
    fold (wrapped a). set (cache := <[p := wrapped a]> (qCache d)).
    assert (HQ : forall k q, Q !! k = Some q -> qatoms cache q = qatoms (qCache d) q).
    { intros k q Hq. apply qatoms_insert. by eapply notin_queue. }
    assert (Hmask' : Forall (fun a => tMask a <= 3) (sofar ++ [wrapped a])).
    { apply Forall_app. split; [apply HT|]. by apply Forall_singleton. }
    destruct (decide (Z.of_nat r = 0)%Z) as [H0|H0].
    - assert (r = 0) by lia. subst r. destruct (Hst eq_refl) as (S1 & S2 & S3). rec.
      rewrite (t_store _ _ _ HT), store_add by done. cbn [obind]. unfold stack_push. rewrite decide_True by lia. cbn [obind]. rec.
      assert (H00 : mine 0 (wrapped a) = true) by (rewrite Hm by done; by apply bool_decide_true).
      eexists _, Q. split; [reflexivity|]. split; [|split; [|exact HO]].
      + destruct HC as [H1 H2 H3 H4 H5 H6 H7 H8 H9 H10 H11 H12 H13]. split; try done.
        split; rec; try done. { unfold cache. by rewrite insert_length. } rewrite <- H8, Hnew. cbn. solve_Permutation.
      + destruct HT as [T1 T2 T3 T4]. split; rec; [| | |done].
        * intros k q Hk Hq. rewrite (HQ _ _ Hq), T1 by done. rewrite filter_snoc, Hm by (rewrite <- (c_len _ _ HC); by eapply lookup_lt_Some).
          rewrite bool_decide_false by lia. by rewrite app_nil_r.
        * by rewrite filter_snoc, H00.
        * rewrite filter_snoc, H00, !app_length. cbn. lia.
    - assert (Hr0 : r <> 0) by lia. rewrite Nat2Z.id.
      destruct (lookup_lt_is_Some_2 Q r ltac:(rewrite (c_len _ _ HC); done)) as [q Hq].
      pose proof (Forall_lookup_1 _ _ _ _ Hlt Hq) as Hql. cbn beta in Hql.
      assert (Hsz : qSizes d !! r = Some (length q)) by (by rewrite (c_sizes _ _ HC), list_lookup_fmap, Hq). rec.
      rewrite (aget_Ok' _ _ _ Hsz). cbn [obind].
      assert (Har : qArr d !! r = Some (qrow send q)) by (by rewrite (c_arr _ _ HC), list_lookup_fmap, Hq).
      rewrite (aget_Ok' _ _ _ Har). cbn [obind].
      assert (Hrl : length (qrow send q) = send) by (unfold qrow; rewrite app_length, map_length, replicate_length; lia).
      rewrite aset_Ok' by lia. cbn [obind]. rewrite aset_Ok' by (by eapply lookup_lt_Some). cbn [obind].
      rewrite aset_Ok' by (by eapply lookup_lt_Some). cbn [obind].
      assert (Hrow : <[length q := Some p]> (qrow send q) = qrow send (q ++ [p])).
      { unfold qrow. rewrite map_app, <- app_assoc. rewrite insert_app_r_alt by (rewrite map_length; lia). f_equal. rewrite map_length, Nat.sub_diag.
        rewrite app_length. replace (send - length q) with (S (send - (length q + 1))) by lia. done. }
      rewrite Hrow.
      set (Q2 := <[r := q ++ [p]]> Q).
      assert (Harr2 : <[r := qrow send (q ++ [p])]> (qArr d) = map (qrow send) Q2) by (unfold Q2; by rewrite list_fmap_insert, (c_arr _ _ HC)).
      assert (Hsz2 : <[r := S (length q)]> (qSizes d) = map length Q2).
      { unfold Q2. rewrite list_fmap_insert, (c_sizes _ _ HC), app_length. f_equal. cbn. lia. }
      rewrite Harr2, Hsz2.
      assert (HQ2l : length Q2 = n) by (unfold Q2; rewrite insert_length; apply HC).
      destruct (lookup_lt_is_Some_2 Q2 (qMax d) ltac:(rewrite HQ2l; apply HC)) as [qm Hqm].
      rewrite (aget_Ok' _ _ (length qm)) by (by rewrite list_lookup_fmap, Hqm). cbn [obind].
      set (mx := if decide (r <> qMax d) then _ else _).
      assert (HQ2r : Q2 !! r = Some (q ++ [p])) by (unfold Q2; rewrite list_lookup_insert; [done|rewrite (c_len _ _ HC); done]).
      assert (Hmx : mx < n /\ exists q', Q2 !! mx = Some q' /\ q' <> []).
      { unfold mx. pose proof (c_max _ _ HC). destruct (decide (r <> qMax d)) as [Hne|He].
        - destruct (decide (length qm < S (length q))); [split; [done|]; exists (q ++ [p]); split; [done|by destruct q]|].
          split; [done|]. exists qm. split; [done|]. intros ->. cbn in *. lia.
        - assert (r = qMax d) as <- by (destruct (decide (r = qMax d)); [done|by destruct He]). split; [done|].
          exists (q ++ [p]). split; [done|by destruct q]. }
      clearbody mx.
      set (d2 := q_count _ _ _ _ _).
      assert (HC2 : core (q_new d2 None (qStore d2)) Q2).
      { pose proof (concat_insert _ _ _ (q ++ [p]) Hq) as HP. fold Q2 in HP.
        assert (HP' : concat Q2 ≡ₚ concat Q ++ [p]).
        { apply (Permutation_app_inv_r q). rewrite HP. solve_Permutation. }
        destruct HC as [H1 H2 H3 H4 H5 H6 H7 H8 H9 H10 H11 H12 H13]. unfold d2. split; rec; try done.
        - unfold cache. by rewrite insert_length.
        - rewrite <- H8, Hnew. cbn [nlist app]. rewrite HP'. solve_Permutation.
        - unfold Q2. rewrite list_lookup_insert_ne by done. done.
        - rewrite HP', app_length. cbn. lia.
        - apply Hmx.
        - unfold Q2. apply Forall_insert; [done|]. rewrite app_length. cbn. lia. }
      assert (HT2 : holds (q_new d2 None (qStore d2)) Q2 (sofar ++ [wrapped a])).
      { destruct HT as [T1 T2 T3 T4]. unfold d2. split; rec; [| | |done].
        - intros k q' Hk Hq'. rewrite filter_snoc, Hm by (rewrite <- HQ2l; by eapply lookup_lt_Some). destruct (decide (k = r)) as [->|Hne].
          + rewrite HQ2r in Hq'. injection Hq' as <-. rewrite bool_decide_true by done.
            unfold qatoms. rewrite omap_app. fold (qatoms cache q). cbn [omap list_omap]. unfold cache at 2.
            rewrite list_lookup_insert by done. rewrite (HQ _ _ Hq), app_assoc, T1 by done. done.
          + unfold Q2 in Hq'. rewrite list_lookup_insert_ne in Hq' by done. rewrite bool_decide_false by done. rewrite (HQ _ _ Hq'), T1 by done.
            by rewrite app_nil_r.
        - rewrite filter_snoc, Hm by done. rewrite bool_decide_false by lia. by rewrite app_nil_r.
        - rewrite filter_snoc, Hm by done. rewrite bool_decide_false by lia. rewrite app_nil_r, app_length. cbn. lia. }
      destruct (decide (S (length q) = qSend d)) as [Hf|Hf].
      + match goal with |- context [seq 0 ?x] => replace (seq 0 x) with (seq 0 (length (q ++ [p]))) by (f_equal; rewrite app_length; cbn in *; lia) end.
        rewrite (flush_core_gen Hb true d2 None Q2 _ _ HC2 HQ2r) by (eapply (q_mask _ _ _ _ _ HC2 HT2); done).
        cbn [obind]. rec. rewrite aset_Ok' by (unfold d2; rec; rewrite map_length, HQ2l; done). cbn [obind].
        unfold send_block_to. rec. unfold check at 1. rewrite bool_decide_true by (unfold d2; rec; rewrite (c_grid _ _ HC); done). cbn [obind].
        unfold check at 1. rewrite bool_decide_false by done. cbn [negb obind]. rec.
        pose proof (row_cleared _ _ _ _ HC2 HQ2r) as Hrc. cbn [q_new qSend] in Hrc. rewrite Hrc.
        pose proof (flushed_core Hn _ Q2 r _ false HC2 HQ2r) as HC'.
        pose proof (flushed_holds _ Q2 _ r _ false HC2 ltac:(lia) HQ2r HT2) as HT'.
        assert (HE : qSent d2 + qSend d2 = qSent d2 + length (q ++ [p])) by (rewrite app_length; cbn in *; lia).
        rewrite HE.
        eexists _, (<[r := []]> Q2). split; [reflexivity|]. split; [|split; [exact HT'|]].
        * split; [exact HC'|done| |].
          -- unfold Q2. rewrite list_insert_insert. apply Forall_insert; [done|]. cbn. lia.
          -- rec. intros HE'. exfalso. rewrite reverse_app in HE'. done.
        * intros k. rec. rewrite sent_to_app, sent_to_one. apply Forall_app. split; [apply HO|]. destruct (decide _); by repeat constructor.
      + cbn [obind]. eexists _, Q2. split; [reflexivity|]. split; [|split; [exact HT2|exact HO]].
        split; [exact HC2|done| |].
        * unfold Q2. apply Forall_insert; [done|]. rewrite app_length. cbn. rewrite (c_send _ _ HC) in Hf. lia.
        * intros _. apply Hmx.
  Qed.

  (** ** The end of the distribution *)
  Definition closed_stream (d : distr) (r : nat) : Prop :=
    exists pks l, sent_to r (qOut d) = pks ++ [(l, true)] /\ Forall (fun pk => pk.2 = false) pks.
  Lemma send_rest_step d Q sofar r : buffer_state h b -> 0 < n -> core d Q -> holds d Q sofar -> 0 < r < n ->
    exists q, Q !! r = Some q /\ send_rest h b d r = Ok (flushed d r q true).
  Proof.
    intros Hb Hn HC HT Hr. destruct (lookup_lt_is_Some_2 Q r ltac:(rewrite (c_len _ _ HC); lia)) as [q Hq]. exists q. split; [done|].
    unfold send_rest.
    assert (Hsz : qSizes d !! r = Some (length q)) by (by rewrite (c_sizes _ _ HC), list_lookup_fmap, Hq).
    rewrite (aget_Ok' _ _ _ Hsz). cbn [obind].
    rewrite (flush_core Hb false d Q r q HC Hq) by (by eapply q_mask). cbn [obind]. unfold send_block_to. rec.
    unfold check at 1. rewrite bool_decide_true by (rewrite (c_grid _ _ HC); lia). cbn [obind].
    unfold check at 1. rewrite bool_decide_false by lia. cbn [negb obind]. rec.
    assert (Har : r < length (qArr d)) by (rewrite (c_arr _ _ HC), map_length, (c_len _ _ HC); lia).
    rewrite aset_Ok' by (by rewrite insert_length). cbn [obind]. rewrite aset_Ok' by (by eapply lookup_lt_Some). cbn [obind].
    rewrite list_insert_insert. done.
  Qed.
  Lemma send_loop d Q sofar k : buffer_state h b -> core d Q -> qNew d = None -> holds d Q sofar -> open_streams d -> k < n ->
    exists d' Q', foldM (send_rest h b) d (seq 1 k) = Ok d' /\ core d' Q' /\ qNew d' = None /\ holds d' Q' sofar /\
      (forall r, 1 <= r <= k -> closed_stream d' r) /\ (forall r, k < r -> Forall (fun pk => pk.2 = false) (sent_to r (qOut d'))) /\
      (forall r, r <= k -> Q' !! r = Some []).
  Proof.
    intros Hb HC Hnew HT HO. induction k as [|k IH]; intros Hk.
    - exists d, Q. cbn [seq foldM]. split; [done|]. split; [done|]. split; [done|]. split; [done|]. split; [lia|]. split; [intros; apply HO|].
      intros r Hr. assert (r = 0) as -> by lia. apply HC.
    - destruct (IH ltac:(lia)) as (d1 & Q1 & H1 & HC1 & Hn1 & HT1 & Hcl & Hop & Hem).
      rewrite seq_S, foldM_app, H1. cbn [obind foldM Nat.add].
      destruct (send_rest_step d1 Q1 sofar (S k) Hb ltac:(lia) HC1 HT1 ltac:(lia)) as (q & Hq & ->). cbn [obind].
      exists (flushed d1 (S k) q true), (<[S k := []]> Q1). split; [done|].
      split; [apply flushed_core; [lia|done|done]|]. split; [done|]. split; [apply flushed_holds; [done|lia|done|done]|].
      split; [|split].
      + intros r Hr. unfold closed_stream, flushed. rec. rewrite sent_to_app, sent_to_one. destruct (decide (S k = r)) as [<-|Hne].
        * eexists _, _. split; [reflexivity|]. apply Hop. lia.
        * rewrite app_nil_r. apply Hcl. lia.
      + intros r Hr. unfold flushed. rec. rewrite sent_to_app, sent_to_one, decide_False by lia. rewrite app_nil_r. apply Hop. lia.
      + intros r Hr. destruct (decide (S k = r)) as [<-|Hne].
        * rewrite list_lookup_insert; [done|]. rewrite (c_len _ _ HC1). lia.
        * rewrite list_lookup_insert_ne by done. apply Hem. lia.
  Qed.

  (** ** The whole run of the master *)
  Record idle (d : distr) : Prop := {
    i_send : qSend d = send; i_grid : qGrid d = n; i_cap : 0 < qCap d; i_cache : length (qCache d) = qCap d;
    i_arr : qArr d = replicate n (replicate send None); i_sizes : qSizes d = replicate n 0; i_res : qRes d ≡ₚ seq 0 (qCap d);
    i_max : qMax d < n; i_new : qNew d = None }.
  Lemma concat_replicate_nil {A} k : concat (replicate k (@nil A)) = [].
  Proof. induction k; cbn; done. Qed.
  Lemma map_replicate' {A B} (f : A -> B) k x : map f (replicate k x) = replicate k (f x).
  Proof. induction k; cbn; congruence. Qed.
  Lemma setup_idle d : buffer_state h b -> 0 < n -> idle d ->
    exists d0, dist_setup d (PS scap stot []) = Ok d0 /\ ready d0 (replicate n []) /\ holds d0 (replicate n []) [] /\ open_streams d0.
  Proof.
    intros Hb Hn [I1 I2 I3 I4 I5 I6 I7 I8 I9]. unfold dist_setup.
    pose proof (Permutation_length I7) as Hl. rewrite seq_length in Hl.
    unfold check at 1. rewrite bool_decide_true by done. cbn [obind]. rewrite I6.
    replace (forallb _ (replicate n 0)) with true. 2:{ clear. induction n; cbn; done. } cbn [check obind].
    eexists. split; [reflexivity|]. split; [|split].
    - split; try done; rec.
      + split; rec; try done.
        * by rewrite replicate_length.
        * rewrite map_replicate', I5. unfold qrow. cbn. by rewrite Nat.sub_0_r.
        * by rewrite map_replicate'.
        * rewrite I9, concat_replicate_nil. cbn. rewrite app_nil_r. done.
        * by apply lookup_replicate_2.
        * by rewrite concat_replicate_nil.
        * apply Forall_replicate. cbn. lia.
      + apply Forall_replicate. cbn. by eapply send_pos.
      + intros E. rewrite E in Hl. cbn in Hl. lia.
    - split; rec; try done. intros r q Hr Hq. apply lookup_replicate in Hq as [-> _]. done.
    - intros r. rec. constructor.
  Qed.
  (** Everything the master needs to know about one atom. *)
  Definition owned_by (D : domain) (a : patom) (r : nat) : Prop :=
    ownerRank D (shiftGen1 (tPos a)) = Ok (Z.of_nat r) /\ r < n /\ forall k, k < n -> mine k (wrapped a) = bool_decide (k = r).
  Lemma master_run D d atoms : buffer_state h b -> 0 < n -> idle d ->
    (forall a, a ∈ atoms -> tMask a <= 3 /\ (0 <= tId a < Z.of_nat stot)%Z /\ exists r, owned_by D a r) ->
    NoDup (map tId atoms) -> length (List.filter (mine 0) (map wrapped atoms)) <= scap ->
    exists d' , dist_master h b D d (PS scap stot []) atoms = Ok d' /\ idle d' /\ qCached d' = qSent d' /\ length (qRes d') = qCap d' /\
      qStore d' = PS scap stot (List.filter (mine 0) (map wrapped atoms)) /\
      qSent d' + length (List.filter (mine 0) (map wrapped atoms)) = length atoms /\
      forall r, 0 < r < n -> closed_stream d' r /\ concat (map fst (sent_to r (qOut d'))) = List.filter (mine r) (map wrapped atoms).
  Proof.
    intros Hb Hn HI Ha Hnd Hcap. unfold dist_master.
    destruct (setup_idle d Hb Hn HI) as (d0 & -> & HR & HT & HO). cbn [obind].
    assert (Hrun : forall l2 l1 d0 Q, l1 ++ l2 = atoms -> ready d0 Q -> holds d0 Q (map wrapped l1) -> open_streams d0 ->
      exists d1 Q1, foldM (fun d a => let? d := dist_newAtomPtr h b d in let? d := dist_write d a in dist_addAtom h b D d) d0 l2 = Ok d1 /\
        ready d1 Q1 /\ holds d1 Q1 (map wrapped atoms) /\ open_streams d1).
    { clear d0 HR HT HO. induction l2 as [|a l2 IH]; intros l1 d0 Q HE HR HT HO; cbn [foldM].
      - rewrite app_nil_r in HE. subst l1. exists d0, Q. done.
      - assert (Hain : a ∈ atoms). { subst atoms. apply elem_of_app. right. by left. }
        destruct (Ha a Hain) as (Hm & Hid & r & Ho1 & Ho2 & Ho3).
        destruct (new_write d0 Q _ a Hb Hn HR HT HO) as (d1 & Q1 & p & HW & HC1 & Hn1 & Hp1 & HT1 & HO1 & Hlt1).
        destruct (add_step D d1 Q1 (map wrapped l1) a p r) as (d2 & Q2 & HA & HR2 & HT2 & HO2); try done.
        { intros ->. split; [|split; [done|]].
          - subst atoms. rewrite map_app in Hcap. cbn [map] in Hcap. rewrite List.filter_app in Hcap. cbn [List.filter] in Hcap.
            rewrite (Ho3 0) in Hcap by done. rewrite bool_decide_true in Hcap by done. rewrite app_length in Hcap. cbn in Hcap. lia.
          - intros Hin. subst atoms. rewrite map_app in Hnd. apply NoDup_app in Hnd as (_ & Hnd & _). apply (Hnd (tId a)); [|by left].
            apply elem_of_list_In, in_map_iff in Hin as (x & Hx & Hin). apply filter_In in Hin as [Hin _].
            apply in_map_iff in Hin as (y & <- & Hin). apply elem_of_list_In, in_map_iff. exists y. done. }
        apply obind_Ok in HW as (dm & -> & HW). cbn [obind]. rewrite HW. cbn [obind]. rewrite HA. cbn [obind].
        apply (IH (l1 ++ [a]) d2 Q2); [subst atoms; by rewrite <- app_assoc|done| |done]. rewrite map_app. done. }
    destruct (Hrun atoms [] d0 (replicate n []) eq_refl HR HT HO) as (d1 & Q1 & -> & HR1 & HT1 & HO1). cbn [obind].
    unfold dist_send. unfold check at 1. rewrite bool_decide_true by apply HR1. cbn [obind].
    pose proof (r_core _ _ HR1) as HC1. rewrite (c_grid _ _ HC1).
    destruct (send_loop d1 Q1 _ (n - 1) Hb HC1 (r_new _ _ HR1) HT1 HO1 ltac:(lia)) as (d2 & Q2 & -> & HC2 & Hn2 & HT2 & Hcl & _ & Hem).
    assert (HQ2 : Q2 = replicate n []).
    { apply list_eq. intros i. destruct (decide (i < n)) as [Hi|Hi].
      - rewrite Hem by lia. symmetry. by apply lookup_replicate_2.
      - rewrite !lookup_ge_None_2; [done|rewrite replicate_length; lia|rewrite (c_len _ _ HC2); lia]. }
    subst Q2. exists d2. split; [done|].
    pose proof (core_count _ _ HC2) as Hcnt. rewrite Hn2, concat_replicate_nil in Hcnt. cbn in Hcnt.
    pose proof (c_cnt _ _ HC2) as Hcc. rewrite concat_replicate_nil in Hcc. cbn in Hcc.
    split; [|split; [lia|split; [lia|split; [apply HT2|split]]]].
    - destruct HC2 as [H1 H2 H3 H4 H5 H6 H7 H8 H9 H10 H11 H12 H13]. split; try done.
      + rewrite H6, map_replicate'. unfold qrow. cbn. by rewrite Nat.sub_0_r.
      + by rewrite H7, map_replicate'.
      + rewrite Hn2, concat_replicate_nil in H8. cbn in H8. by rewrite app_nil_r in H8.
    - pose proof (t_count _ _ _ HT2) as Ht. rewrite map_length in Ht. lia.
    - intros r Hr. split; [apply Hcl; lia|]. rewrite <- (t_sent _ _ _ HT2 r [] ltac:(lia)) by (apply lookup_replicate_2; lia).
      cbn. by rewrite app_nil_r.
  Qed.
End master.

(** ** The other processors *)
Lemma receive_run D rank pks l s :
  Forall (fun pk => pk.2 = false) pks -> Forall (fun a => ownerRank D (tPos a) = Ok rank) (concat (map fst (pks ++ [(l, true)]))) ->
  length (psAtoms s ++ concat (map fst (pks ++ [(l, true)]))) <= psCap s ->
  NoDup (map tId (psAtoms s ++ concat (map fst (pks ++ [(l, true)])))) ->
  Forall (fun a => (0 <= tId a < Z.of_nat (psTotal s))%Z) (concat (map fst (pks ++ [(l, true)]))) ->
  dist_receive D rank s (pks ++ [(l, true)]) = Ok (Some (PS (psCap s) (psTotal s) (psAtoms s ++ concat (map fst (pks ++ [(l, true)]))), [])).
Proof.
  assert (HB : forall l s, Forall (fun a => ownerRank D (tPos a) = Ok rank) l -> length (psAtoms s ++ l) <= psCap s ->
    NoDup (map tId (psAtoms s ++ l)) -> Forall (fun a => (0 <= tId a < Z.of_nat (psTotal s))%Z) l ->
    foldM (fun s a => let? s := ps_add s a in let? r := ownerRank D (tPos a) in let? _ := check (bool_decide (r = rank)) in Ok s) s l =
    Ok (PS (psCap s) (psTotal s) (psAtoms s ++ l))).
  { clear. induction l as [|a l IH]; intros s Ho Hc Hd Hi; cbn [foldM].
    - rewrite app_nil_r. by destruct s.
    - apply Forall_cons in Ho as [Ho Hos]. apply Forall_cons in Hi as [Hi His]. destruct s as [cap tot at_]. cbn [psAtoms psCap psTotal] in *.
      rewrite store_add; [|rewrite app_length in Hc; cbn in Hc; lia|done|].
      2:{ rewrite map_app in Hd. apply NoDup_app in Hd as (_ & Hd & _). intros Hin. by apply (Hd _ Hin); left. }
      cbn [obind]. rewrite Ho. cbn [obind]. rewrite bool_decide_true by done. cbn [check obind].
      rewrite IH; cbn [psAtoms psCap psTotal]; rewrite <- ?app_assoc; done. }
  revert s. induction pks as [|[l1 f1] pks IH]; intros s Hf Ho Hc Hd Hi.
  - cbn in *. rewrite app_nil_r in *. by rewrite HB by done.
  - apply Forall_cons in Hf as [Hf1 Hf]. cbn in Hf1. subst f1. cbn [app map fst concat] in *.
    apply Forall_app in Ho as [Ho1 Ho2]. apply Forall_app in Hi as [Hi1 Hi2]. rewrite app_assoc in Hc, Hd.
    cbn [dist_receive]. rewrite HB; [|done| | |done].
    + cbn [obind]. rewrite IH; [|done|done|done|done|done]. cbn [psAtoms psCap psTotal]. by rewrite <- app_assoc.
    + rewrite app_length in Hc. lia.
    + rewrite map_app in Hd. by apply NoDup_app in Hd as (Hd & _ & _).
Qed.

(** ** Ownership *)
Lemma filter_parts {A} (f : nat -> A -> bool) n l : (forall a, a ∈ l -> exists r, r < n /\ forall k, k < n -> f k a = bool_decide (k = r)) ->
  concat (map (fun r => List.filter (f r) l) (seq 0 n)) ≡ₚ l.
Proof.
  induction l as [|x l IH]; intros H.
  - replace (concat _) with (@nil A); [done|]. generalize (seq 0 n). clear. intros L. induction L; cbn; done.
  - destruct (H x ltac:(by left)) as (r & Hr & Hf).
    assert (HG : forall m k, (forall i, k <= i < k + m -> f i x = bool_decide (i = r)) ->
      concat (map (fun r => List.filter (f r) (x :: l)) (seq k m)) ≡ₚ
      (if decide (k <= r < k + m) then [x] else []) ++ concat (map (fun r => List.filter (f r) l) (seq k m))).
    { clear -x l. induction m as [|m IH]; intros k Hf.
      - cbn. by rewrite decide_False by lia.
      - cbn [seq map concat]. rewrite (IH (S k)) by (intros i Hi; apply Hf; lia). cbn [List.filter]. rewrite (Hf k) by lia.
        destruct (decide (k = r)) as [->|Hne].
        + rewrite bool_decide_true by done. rewrite decide_False by lia. rewrite decide_True by lia. done.
        + rewrite bool_decide_false by done. destruct (decide (S k <= r < S k + m)).
          * rewrite decide_True by lia. solve_Permutation.
          * rewrite decide_False by lia. done. }
    rewrite (HG n 0) by (intros i Hi; apply Hf; lia). rewrite decide_True by lia. cbn [app]. constructor. apply IH. intros a Ha. apply H. by right.
Qed.

Definition mineD (Ds : list domain) (r : nat) (a : patom) : bool := match Ds !! r with Some D => isInDomain D (tPos a) | None => false end.
Lemma n_proc_pos dims : grid_ok dims -> 0 < n_proc dims.
Proof. intros (H1 & H2 & H3). unfold n_proc, grid_size. assert (0 < vx dims * vy dims * vz dims)%Z by nia. lia. Qed.
Lemma owner_fact dims Ds a : grid_ok dims -> domains_of dims Ds -> in_cell (tPos a) ->
  exists r, r < n_proc dims /\ forall k D, Ds !! k = Some D ->
    ownerRank D (tPos a) = Ok (Z.of_nat r) /\ mineD Ds k a = bool_decide (k = r) /\ (mineD Ds k a = true -> in_bounds D a = true).
Proof.
  intros Hg [Hl HD] Hc. destruct (domains_partition_the_box dims (tPos a) Hg Hc) as (r & Hr & HO).
  exists (Z.to_nat r). split; [unfold n_proc; lia|]. intros k D Hk. pose proof (HD _ _ Hk) as Hdk. apply lookup_lt_Some in Hk as Hlt.
  destruct (HO (Z.of_nat k) D ltac:(unfold n_proc in Hl; lia) Hdk) as (O1 & O2 & O3). rewrite Z2Nat.id by lia. split; [done|].
  unfold mineD. rewrite Hk. split.
  - apply eq_true_iff_eq. rewrite O2, bool_decide_eq_true. lia.
  - intros Hm. pose proof (proj1 O3 Hm) as Hm'. clear Hm. rename Hm' into Hm. unfold in_bounds. cbn [forallb].
    pose proof (Hm 0 ltac:(lia)). pose proof (Hm 1 ltac:(lia)). pose proof (Hm 2 ltac:(lia)).
    repeat (destruct (Rlt_dec _ _); [exfalso; lra|]; destruct (Rge_dec _ _); [exfalso; lra|]). done.
Qed.
Lemma wrapped_in_cell a : (forall i, i < 3 -> (-1 <= vget (tPos a) i < 2)%R) -> in_cell (tPos (wrapped a)).
Proof.
  intros H. destruct (shiftGen (tPos a) (V3 0%Z 0%Z 0%Z)) as [r' s'] eqn:E.
  destruct (ortho_shiftGen_wraps _ _ _ _ H E) as (Hw & He & _). cbn [wrapped tPos]. rewrite He.
  pose proof (Hw 0 ltac:(lia)) as [H0 _]. pose proof (Hw 1 ltac:(lia)) as [H1 _]. pose proof (Hw 2 ltac:(lia)) as [H2 _].
  cbn in *. done.
Qed.
