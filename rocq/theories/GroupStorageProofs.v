From Verif Require Import Base Containers GroupStorageModel GroupStorageSpec.
From stdpp Require Import list_numbers.

Section P.
  Variables cap total : nat.

  Record ginv (s : gstorage) : Prop := {
    g_len : length (gsIds s) = cap;
    g_tot : length (gsPtrs s) = total;
    g_slots : option_list (gsNew s) ++ gsRes s ++ gsSet s ≡ₚ seq 0 cap;
    g_res : forall n, n ∈ gsRes s -> gsIds s !! n = Some (-1)%Z;
    g_set : forall n, n ∈ gsSet s ->
      exists k, gsIds s !! n = Some (Z.of_nat k) /\ gsPtrs s !! k = Some (Some n);
    g_ptr : forall k n, gsPtrs s !! k = Some (Some n) ->
      n ∈ gsSet s /\ gsIds s !! n = Some (Z.of_nat k)
  }.

  Lemma ginv_init : ginv (gs_init cap total).
  Proof.
    split; simpl; rewrite ?replicate_length; auto.
    - by rewrite app_nil_r.
    - intros n Hn. apply elem_of_seq in Hn. apply lookup_replicate. lia.
    - intros n Hn. by apply elem_of_nil in Hn.
    - intros k n H. apply lookup_replicate in H as [? _]. done.
  Qed.

  Lemma ginv_nodup s : ginv s -> NoDup (option_list (gsNew s) ++ gsRes s ++ gsSet s).
  Proof. intros I. rewrite (g_slots _ I). apply NoDup_seq. Qed.

  Lemma ginv_in s n : ginv s -> (n < cap <->
     gsNew s = Some n \/ n ∈ gsRes s \/ n ∈ gsSet s).
  Proof.
    intros I. assert (n ∈ option_list (gsNew s) ++ gsRes s ++ gsSet s <-> n < cap) as H.
    { rewrite (g_slots _ I). rewrite elem_of_seq. lia. }
    rewrite <- H. rewrite !elem_of_app.
    assert (n ∈ option_list (gsNew s) <-> gsNew s = Some n) as ->; [|done].
    destruct (gsNew s); simpl; rewrite ?elem_of_list_singleton, ?elem_of_nil; naive_solver.
  Qed.

  Lemma ginv_disj s n : ginv s -> n ∈ gsSet s -> n ∉ gsRes s /\ gsNew s <> Some n.
  Proof.
    intros I Hn. pose proof (ginv_nodup s I) as N.
    rewrite app_assoc in N. apply NoDup_app in N as (_ & N & _).
    split; intros H; eapply N; [| exact Hn | | exact Hn]; rewrite elem_of_app.
    - by right.
    - left. rewrite H. simpl. by apply elem_of_list_singleton.
  Qed.

  Lemma ginv_disj_new s n : ginv s -> gsNew s = Some n -> n ∉ gsRes s /\ n ∉ gsSet s.
  Proof.
    intros I Hn. pose proof (ginv_nodup s I) as N. rewrite Hn in N. simpl in N.
    apply NoDup_cons in N as [N _]. rewrite elem_of_app in N. tauto.
  Qed.

  (* changing the id of the record handed out *)
  Lemma ginv_setnew s n id : ginv s -> gsNew s = Some n ->
    ginv (GStorage (<[n := id]> (gsIds s)) (gsSet s) (gsRes s) (gsPtrs s) (gsNew s)).
  Proof.
    intros I Hn. destruct (ginv_disj_new _ _ I Hn) as [H1 H2]. destruct I as [A B C D E F].
    split; simpl; auto.
    - by rewrite insert_length.
    - intros m Hm. rewrite list_lookup_insert_ne by (intros ->; done). auto.
    - intros m Hm. rewrite list_lookup_insert_ne by (intros ->; done). auto.
    - intros k m Hk. destruct (F _ _ Hk) as [? ?].
      rewrite list_lookup_insert_ne by (intros ->; done). auto.
  Qed.

  Lemma res_room s n : ginv s -> (gsNew s = Some n \/ n ∈ gsSet s) ->
    stack_push (length (gsIds s)) (gsRes s) n = Ok (n :: gsRes s).
  Proof.
    intros I Hn. unfold stack_push. rewrite decide_True; [done|].
    rewrite (g_len _ I).
    pose proof (Permutation_length (g_slots _ I)) as L.
    rewrite !app_length, seq_length in L.
    destruct Hn as [Hn|Hn].
    - rewrite Hn in L. simpl in L. lia.
    - destruct (gsSet s); [by apply elem_of_nil in Hn|]. simpl in L. lia.
  Qed.

  Lemma in_range_nat s k : gs_in_range s (Z.of_nat k) = true <-> k < length (gsPtrs s).
  Proof. unfold gs_in_range. rewrite andb_true_iff, Z.leb_le, Z.ltb_lt. lia. Qed.
  Lemma in_range_inv s id : gs_in_range s id = true ->
    exists k, id = Z.of_nat k /\ Z.to_nat id = k /\ k < length (gsPtrs s).
  Proof.
    unfold gs_in_range. rewrite andb_true_iff, Z.leb_le, Z.ltb_lt. intros H.
    exists (Z.to_nat id). lia.
  Qed.

  Lemma newPtr_ok s r : ginv s -> gs_newPtr s = r ->
    match r with
    | ROk s' _ => ginv s' /\ exists n, gsNew s' = Some n /\ gsSet s' = gsSet s
    | RThrow s' => s' = s
    | RUB => False end.
  Proof.
    intros I <-. unfold gs_newPtr, stack_pop. destruct (gsNew s) eqn:E; [done|].
    destruct (gsRes s) as [|n r] eqn:R; [done|].
    split; [|exists n; done].
    pose proof I as I0. destruct I as [A B C D E' F]. rewrite E, R in C. simpl in C.
    assert (n ∈ gsRes s) as Hn by (rewrite R; left).
    assert (forall m, m ∈ gsSet s -> m <> n) as Hne.
    { intros m Hm ->. by destruct (ginv_disj _ _ I0 Hm). }
    split; simpl; auto.
    - by rewrite insert_length.
    - intros m Hm. destruct (decide (m = n)) as [->|].
      + apply list_lookup_insert.
        assert (n < cap) by (apply (ginv_in _ _ I0); auto). lia.
      + rewrite list_lookup_insert_ne by done. apply D. rewrite R. by right.
    - intros m Hm. rewrite list_lookup_insert_ne by (apply not_eq_sym; auto). auto.
    - intros k m Hk. destruct (F _ _ Hk) as [? ?].
      rewrite list_lookup_insert_ne by (apply not_eq_sym; auto). auto.
  Qed.

  Lemma add_ok s r : ginv s -> gs_add s = r ->
    match r with
    | ROk s' _ => ginv s' /\ gsNew s' = None /\ exists n k, gsNew s = Some n /\
        gsIds s !! n = Some (Z.of_nat k) /\ gsPtrs s !! k = Some None /\
        gsSet s' = gsSet s ++ [n]
    | RThrow s' => s' = s
    | RUB => False end.
  Proof.
    intros I <-. unfold gs_add. destruct (gsNew s) as [n|] eqn:E; [|done].
    destruct (ginv_disj_new _ _ I E) as [H1 H2].
    assert (n < cap) as Hc by (apply (ginv_in _ _ I); auto).
    destruct (gsIds s !! n) as [id|] eqn:Ei.
    2:{ apply lookup_ge_None in Ei. rewrite (g_len _ I) in Ei. lia. }
    destruct (gs_in_range s id) eqn:Er; [|done].
    apply in_range_inv in Er as (k & -> & Hk & Hlt). rewrite Hk.
    destruct (gsPtrs s !! k) as [[m|]|] eqn:Ep; [done| |apply lookup_ge_None in Ep; lia].
    unfold set_append. rewrite decide_False by done.
    split; [|split; [done|]; exists n, k; done].
    destruct I as [A B C D E' F]. split; simpl; auto.
    - by rewrite insert_length.
    - rewrite E in C. simpl in C. rewrite <- C. rewrite (Permutation_app_comm (gsSet s)).
      simpl. by rewrite <- Permutation_middle.
    - intros m Hm. apply elem_of_app in Hm as [Hm|Hm%elem_of_list_singleton].
      + destruct (E' _ Hm) as (k' & ? & Hp). exists k'. split; [done|].
        rewrite list_lookup_insert_ne by congruence. done.
      + subst m. exists k. split; [done|]. by apply list_lookup_insert.
    - intros k' m Hm. destruct (decide (k = k')) as [<-|].
      + rewrite list_lookup_insert in Hm by done. injection Hm as <-.
        split; [|done]. apply elem_of_app. right. by apply elem_of_list_singleton.
      + rewrite list_lookup_insert_ne in Hm by done. destruct (F _ _ Hm). split; [|done].
        apply elem_of_app. by left.
  Qed.

  (* take the used slot n out of the tables and put it in the reservoir *)
  Lemma take_out s n k l : ginv s -> n ∈ gsSet s -> gsIds s !! n = Some (Z.of_nat k) ->
    n :: l ≡ₚ gsSet s ->
    ginv (GStorage (<[n:=(-1)%Z]> (gsIds s)) l (n :: gsRes s)
                   (<[k := None]> (gsPtrs s)) (gsNew s)).
  Proof.
    intros I Hn Hid Hl. destruct (ginv_disj _ _ I Hn) as [H1 H2].
    assert (n < cap) as Hc by (apply (ginv_in _ _ I); auto).
    assert (NoDup (n :: l)) as ND.
    { rewrite Hl. pose proof (ginv_nodup s I) as N.
      rewrite app_assoc in N. apply NoDup_app in N. tauto. }
    apply NoDup_cons in ND as [Nn _].
    destruct I as [A B C D E' F].
    destruct (E' _ Hn) as (k0 & Hk0 & Hp). rewrite Hid in Hk0.
    assert (k0 = k) as -> by (injection Hk0; lia).
    apply lookup_lt_Some in Hp as Hlt.
    split; simpl.
    - by rewrite insert_length.
    - by rewrite insert_length.
    - rewrite <- C, <- Hl. rewrite <- (Permutation_middle (gsRes s) l n). done.
    - intros m Hm. destruct (decide (m = n)) as [->|].
      + apply list_lookup_insert. lia.
      + rewrite list_lookup_insert_ne by done. apply D.
        apply elem_of_cons in Hm as [|]; done.
    - intros m Hm. assert (m <> n) by (intros ->; done).
      assert (m ∈ gsSet s) as Hm' by (rewrite <- Hl; by right).
      destruct (E' _ Hm') as (k' & ? & Hq). exists k'.
      rewrite list_lookup_insert_ne by done. split; [done|].
      rewrite list_lookup_insert_ne by congruence. done.
    - intros k' m Hm. destruct (decide (k = k')) as [<-|].
      + rewrite list_lookup_insert in Hm by done. done.
      + rewrite list_lookup_insert_ne in Hm by done. destruct (F _ _ Hm) as [G1 G2].
        assert (m <> n). { intros ->. rewrite Hid in G2. injection G2. lia. }
        rewrite list_lookup_insert_ne by done. split; [|done].
        rewrite <- Hl in G1. apply elem_of_cons in G1 as [|]; done.
  Qed.

  Lemma remove_ok s n r : ginv s -> n < cap -> gsNew s <> Some n -> gs_remove s n = r ->
    match r with
    | ROk s' _ => ginv s' /\ gsNew s' = gsNew s /\ n ∈ gsSet s /\ n :: gsSet s' ≡ₚ gsSet s
    | RThrow s' => s' = s /\ n ∉ gsSet s
    | RUB => False end.
  Proof.
    intros I Hn Hnew <-. unfold gs_remove.
    pose proof Hn as Hn'. apply (ginv_in _ _ I) in Hn' as [?|[Hr|Hs]]; [done| |].
    - rewrite (g_res _ I _ Hr). split; [done|]. intros Hs. by destruct (ginv_disj _ _ I Hs).
    - destruct (g_set _ I _ Hs) as (k & Hid & Hp). rewrite Hid.
      rewrite (proj2 (in_range_nat s k)) by (by apply lookup_lt_Some in Hp).
      rewrite Nat2Z.id, Hp. rewrite res_room by auto.
      destruct (set_remove_Ok _ _ Hs) as [l Hl]. rewrite Hl.
      apply set_remove_perm in Hl. split; [|done]. by apply take_out.
  Qed.

  Lemma clear_loop_ok k : forall s, ginv s -> length (gsSet s) = k ->
    exists s', gs_clear_loop k s = ROk s' tt /\ ginv s' /\ gsSet s' = [] /\ gsNew s' = gsNew s.
  Proof.
    induction k as [|k IH]; intros s I Hk; simpl.
    - apply nil_length_inv in Hk. eauto.
    - destruct (set_pop_Ok (gsSet s)) as (n & l & Hp); [by destruct (gsSet s)|].
      rewrite Hp. apply set_pop_perm in Hp.
      assert (n ∈ gsSet s) as Hs. { rewrite Hp. apply elem_of_app. right. by apply elem_of_list_singleton. }
      destruct (g_set _ I _ Hs) as (j & Hid & Hq). rewrite Hid.
      rewrite (proj2 (in_range_nat s j)) by (by apply lookup_lt_Some in Hq).
      rewrite res_room by auto. rewrite Nat2Z.id.
      edestruct (IH (GStorage (<[n:=(-1)%Z]> (gsIds s)) l (n :: gsRes s)
                   (<[j := None]> (gsPtrs s)) (gsNew s))) as (s' & H1 & H2 & H3 & H4).
      + apply take_out; auto. rewrite Hp. by rewrite Permutation_app_comm.
      + simpl. rewrite Hp, app_length in Hk. simpl in Hk. lia.
      + exists s'. auto.
  Qed.

  Lemma clear_ok s : ginv s ->
    exists s', gs_clear s = ROk s' tt /\ ginv s' /\ gsSet s' = [] /\ gsNew s' = gsNew s.
  Proof.
    intros I. unfold gs_clear. destruct (clear_loop_ok _ s I eq_refl) as (s' & -> & H1 & H2 & H3).
    rewrite H2. simpl. eauto.
  Qed.

  Lemma step_ok s o : ginv s -> gs_pre cap s o ->
    match gs_step s o with ROk s' _ | RThrow s' => ginv s' | RUB => False end.
  Proof.
    intros I Ho. destruct o; simpl.
    - pose proof (newPtr_ok s _ I eq_refl) as H. destruct (gs_newPtr s); try done; [tauto|by subst].
    - unfold gs_setId. destruct (gsNew s) as [n|] eqn:E; [|done].
      rewrite <- E. by apply ginv_setnew.
    - unfold gs_returnPtr. destruct (gsNew s) as [n|] eqn:E; [|done].
      rewrite res_room by auto. destruct (ginv_disj_new _ _ I E) as [H1 H2].
      assert (n < cap) as Hc by (apply (ginv_in _ _ I); auto).
      apply (ginv_setnew _ n (-1)%Z) in I; [|done]. destruct I as [A B C D E' F].
      rewrite E in C. simpl in *. split; simpl; auto.
      intros m Hm. destruct (decide (m = n)) as [->|].
      + apply list_lookup_insert. rewrite insert_length in A. lia.
      + apply D. apply elem_of_cons in Hm as [|]; done.
    - pose proof (add_ok s _ I eq_refl) as H. destruct (gs_add s); try done; [tauto|by subst].
    - unfold gs_addId. pose proof (newPtr_ok s _ I eq_refl) as H.
      destruct (gs_newPtr s) as [s1 u| |]; [|by subst|done].
      destruct H as [I1 (n & Hn & _)]. unfold gs_setId. rewrite Hn.
      apply (ginv_setnew _ n id) in I1; [|done]. rewrite Hn in I1.
      pose proof (add_ok _ _ I1 eq_refl) as H.
      destruct (gs_add _); try done; [tauto|by subst].
    - destruct Ho as [Ho1 Ho2]. pose proof (remove_ok s n _ I Ho1 Ho2 eq_refl) as H.
      destruct (gs_remove s n); try done; [tauto|]. by destruct H as [-> _].
    - destruct (clear_ok s I) as (s' & -> & ? & _). done.
  Qed.

  Lemma run_ok ops : forall s, ginv s -> gs_respects cap s ops ->
    exists s', gs_run s ops = Some s' /\ ginv s'.
  Proof.
    induction ops as [|o ops IH]; intros s I H; simpl; [eauto|].
    simpl in H. destruct H as [Ho Hr]. pose proof (step_ok s o I Ho) as Hs.
    destruct (gs_step s o); try done; by apply IH.
  Qed.

  Lemma find_ok s k : ginv s -> k < total ->
    exists r, gs_find s (Z.of_nat k) = Ok r /\ gs_find_correct s (Z.of_nat k) r.
  Proof.
    intros I Hk. unfold gs_find. rewrite decide_True by lia. rewrite Nat2Z.id.
    destruct (lookup_lt_is_Some_2 (gsPtrs s) k) as [r Hr]; [by rewrite (g_tot _ I)|].
    exists r. split; [by apply aget_Ok|]. destruct r as [n|]; simpl.
    - apply (g_ptr _ I) in Hr. done.
    - intros n [H1 H2]. destruct (g_set _ I _ H1) as (k' & H3 & H4).
      rewrite H2 in H3. assert (k' = k) as -> by (injection H3; lia). congruence.
  Qed.

  Lemma valid_ok s : ginv s -> gsNew s = None -> gs_isValid s = true.
  Proof.
    intros I Hn. unfold gs_isValid. rewrite !andb_true_iff. split; [split|].
    - apply bool_decide_eq_true_2.
      pose proof (Permutation_length (g_slots _ I)) as L.
      rewrite !app_length, seq_length, Hn in L. rewrite (g_len _ I). simpl in L. lia.
    - apply Is_true_true, forallb_True, Forall_forall. intros [k p] Hk. simpl.
      apply elem_of_list_lookup in Hk as [i Hi]. rewrite list_lookup_imap in Hi.
      destruct (gsPtrs s !! i) as [q|] eqn:E; [|done]. simpl in Hi. injection Hi as <- <-.
      destruct q as [n|]; [|done]. apply (g_ptr _ I) in E as [_ E].
      by apply Is_true_true, bool_decide_eq_true_2.
    - apply Is_true_true, forallb_True, Forall_forall. intros n Hs.
      destruct (g_set _ I _ Hs) as (k & Hid & Hp). rewrite Hid.
      apply Is_true_true, bool_decide_eq_true_2. unfold gs_find.
      rewrite decide_True by lia. rewrite Nat2Z.id. by apply aget_Ok.
  Qed.
End P.
