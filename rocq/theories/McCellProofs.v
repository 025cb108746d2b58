From Verif Require Import Base McCellModel McCellSpec.
From stdpp Require Import gmap.

Lemma scan_down_spec l : forall k,
  k <= length l ->
  scan_down l k <= k /\
  (forall i, scan_down l k <= i < k -> l !! i = Some None) /\
  (0 < scan_down l k -> exists a, l !! (scan_down l k - 1) = Some (Some a)).
Proof.
  induction k as [|k IH]; intros Hk; simpl.
  - repeat split; intros; lia.
  - destruct (lookup_lt_is_Some_2 l k) as [x Hx]; [lia|]. rewrite Hx.
    destruct x as [a|].
    + repeat split; intros; try lia. exists a. by replace (S k - 1) with k by lia.
    + destruct IH as (H1 & H2 & H3); [lia|]. split; [lia|]. split; [|done].
      intros i Hi. destruct (decide (i = k)) as [->|]; [done|]. apply H2. lia.
Qed.

Lemma scan_up_Some l : forall n k i, scan_up l k n = Some i ->
  k <= i < k + n /\ l !! i = Some None /\
  forall j, k <= j < i -> l !! j <> Some None.
Proof.
  induction n as [|n IH]; intros k i H; simpl in H; [done|].
  destruct (l !! k) as [[a|]|] eqn:E.
  - apply IH in H as (H1 & H2 & H3). split; [lia|]. split; [done|].
    intros j Hj. destruct (decide (j = k)) as [->|]; [by rewrite E|]. apply H3; lia.
  - injection H as ->. split; [lia|]. split; [done|]. intros; lia.
  - apply IH in H as (H1 & H2 & H3). split; [lia|]. split; [done|].
    intros j Hj. destruct (decide (j = k)) as [->|]; [by rewrite E|]. apply H3; lia.
Qed.

Lemma scan_up_None l : forall n k, scan_up l k n = None ->
  forall j, k <= j < k + n -> l !! j <> Some None.
Proof.
  induction n as [|n IH]; intros k H j Hj; simpl in H; [lia|].
  destruct (l !! k) as [[a|]|] eqn:E; [|done|];
  (destruct (decide (j = k)) as [->|]; [by rewrite E| eapply IH; eauto; lia]).
Qed.

(* counting occupied slots *)
Definition occ (l : list (option nat)) : list nat := omap id l.

Lemma occ_insert_Some l i a : l !! i = Some None -> occ (<[i:=Some a]> l) ≡ₚ a :: occ l.
Proof.
  unfold occ. revert i. induction l as [|x l IH]; intros [|i] H; simplify_eq/=; [done|].
  destruct x; simpl; rewrite IH by done; [apply Permutation_swap|done].
Qed.

Lemma occ_insert_None l i a : l !! i = Some (Some a) -> a :: occ (<[i:=None]> l) ≡ₚ occ l.
Proof.
  unfold occ. revert i. induction l as [|x l IH]; intros [|i] H; simplify_eq/=; [done|].
  destruct x; simpl; rewrite <- (IH i) by done; [apply Permutation_swap|done].
Qed.

Lemma occ_take l k : (forall i, k <= i < length l -> l !! i = Some None) ->
  occ (take k l) = occ l.
Proof.
  unfold occ. revert k. induction l as [|x l IH]; intros [|k] H; simpl; try done.
  - pose proof (H 0 ltac:(simpl; lia)) as H0. simpl in H0. simplify_eq.
    simpl. apply (IH 0). intros i Hi. apply (H (S i)). simpl; lia.
  - assert (occ (take k l) = occ l) as E.
    { apply IH. intros i Hi. apply (H (S i)). simpl; lia. }
    unfold occ in E. destruct x; simpl; [by f_equal|done].
Qed.

Lemma occ_length_full l : (forall i, i < length l -> exists a, l !! i = Some (Some a)) ->
  length (occ l) = length l.
Proof.
  unfold occ. induction l as [|x l IH]; intros H; simpl; [done|].
  destruct (H 0) as [a Ha]; [simpl; lia|]. simpl in Ha. simplify_eq. simpl. f_equal.
  apply IH. intros i Hi. apply (H (S i)). simpl; lia.
Qed.

Lemma occ_elem l a : a ∈ occ l <-> exists p, l !! p = Some (Some a).
Proof.
  unfold occ. rewrite elem_of_list_omap. split.
  - intros (x & Hx & Hid). simpl in Hid. subst. apply elem_of_list_lookup_1 in Hx. done.
  - intros [p Hp]. exists (Some a). split; [|done]. eapply elem_of_list_lookup_2; eauto.
Qed.

Section Inv.
  Variable M : nat.
  Hypothesis HM : 0 < M.

  Record inv (t : tagged) (h : gset nat) : Prop := {
    i_len : length (slots (tcell t)) = M;
    i_fe : fe (tcell t) < M;
    i_fc : fc (tcell t) <= M;
    i_fefc : fe (tcell t) <= fc (tcell t);
    i_feNone : slots (tcell t) !! fe (tcell t) = Some None;
    i_below : forall i, i < fe (tcell t) -> exists a, slots (tcell t) !! i = Some (Some a);
    i_above : forall i, fc (tcell t) <= i < M -> slots (tcell t) !! i = Some None;
    i_last : 0 < fc (tcell t) -> exists a, slots (tcell t) !! (fc (tcell t) - 1) = Some (Some a);
    i_occ : occ (slots (tcell t)) ≡ₚ elements h;
    i_n : ncell (tcell t) = Z.of_nat (size h);
    i_tag : forall a p, tags t !! a = Some p <-> slots (tcell t) !! p = Some (Some a)
  }.

  Lemma inv_init : inv (cell_init M) ∅.
  Proof.
    split; simpl; try lia.
    - apply replicate_length.
    - by apply lookup_replicate_2.
    - intros i Hi. apply lookup_replicate_2; lia.
    - unfold occ. clear. induction M; simpl; auto.
    - done.
    - intros a p. rewrite lookup_empty. split; [done|].
      intros H. apply lookup_replicate_1 in H as [? _]. done.
  Qed.

  Lemma in_h t h a : inv t h -> (a ∈ h <-> exists p, slots (tcell t) !! p = Some (Some a)).
  Proof.
    intros I. rewrite <- occ_elem, (i_occ _ _ I). by rewrite elem_of_elements.
  Qed.

  Lemma size_occ t h : inv t h -> size h = length (occ (slots (tcell t))).
  Proof. intros I. rewrite (i_occ _ _ I). done. Qed.

  Lemma inv_add t h a : inv t h -> a ∉ h -> size h < M - 1 ->
    exists t', cell_step M t (AddAtom a) = Ok t' /\ inv t' ({[a]} ∪ h).
  Proof.
    intros I Ha Hsz. destruct t as [[s n e f] g]. pose proof I as I0.
    destruct I as [Hl He Hf Hef HeN Hb Hab Hlast Hocc Hn Ht]; simpl in *.
    unfold cell_add. simpl. rewrite decide_False by lia.
    unfold aset. rewrite decide_True by lia. simpl.
    set (s' := <[e:=Some a]> s).
    assert (Hs'e : s' !! e = Some (Some a)) by (apply list_lookup_insert; lia).
    assert (Hs'ne : forall i, i <> e -> s' !! i = s !! i)
      by (intros; by apply list_lookup_insert_ne).
    assert (Hl' : length s' = M) by (subst s'; by rewrite insert_length).
    assert (Hocc' : occ s' ≡ₚ elements ({[a]} ∪ h)).
    { subst s'. rewrite occ_insert_Some by done. rewrite Hocc.
      by rewrite elements_union_singleton. }
    assert (Hn' : (n + 1)%Z = Z.of_nat (size ({[a]} ∪ h))).
    { rewrite size_union by set_solver. rewrite size_singleton. lia. }
    assert (Ht' : forall b p, <[a:=e]> g !! b = Some p <-> s' !! p = Some (Some b)).
    { intros b p. destruct (decide (b = a)) as [->|Hba].
      - rewrite lookup_insert. split.
        + by intros [= <-].
        + intros Hp. destruct (decide (p = e)) as [->|]; [done|].
          rewrite Hs'ne in Hp by done. exfalso. apply Ha.
          apply (in_h (Tagged (Cell s n e f) g)); [done|]. simpl; eauto.
      - rewrite lookup_insert_ne by done. rewrite Ht.
        destruct (decide (p = e)) as [->|]; [|by rewrite Hs'ne].
        rewrite Hs'e, HeN. split; congruence. }
    (* a free slot other than e remains *)
    assert (Hfree : exists i, i < M /\ s' !! i = Some None).
    { destruct (scan_up s' 0 M) as [i|] eqn:E.
      - apply scan_up_Some in E as (? & ? & _). exists i. split; [lia|done].
      - exfalso. assert (length (occ s') = M).
        { rewrite <- Hl'. apply occ_length_full. intros i Hi.
          destruct (lookup_lt_is_Some_2 s' i Hi) as [[b|] Hb']; [eauto|].
          exfalso. eapply scan_up_None; [exact E| |exact Hb']. lia. }
        rewrite Hocc' in H. change (length (elements ?x)) with (size x) in H. lia. }
    destruct Hfree as (i0 & Hi0 & HNone0).
    assert (Hi0e : e < i0).
    { destruct (decide (i0 = e)) as [->|]; [congruence|].
      destruct (decide (i0 < e)) as [Hlt|]; [|lia].
      destruct (Hb _ Hlt) as [b Hb']. rewrite Hs'ne in HNone0 by lia. congruence. }
    rewrite decide_True by lia.
    destruct (decide (e = f)) as [->|Hne]; eexists; (split; [reflexivity|]).
    - split; simpl; try done; try lia.
      + rewrite Hs'ne by lia. apply Hab. lia.
      + intros i Hi. destruct (decide (i = f)) as [->|]; [eauto|].
        rewrite Hs'ne by done. apply Hb. lia.
      + intros i Hi. rewrite Hs'ne by lia. apply Hab. lia.
      + intros _. replace (f + 1 - 1) with f by lia. eauto.
    - destruct (scan_up s' (e + 1) (M - (e + 1))) as [i|] eqn:E.
      + apply scan_up_Some in E as (Hi & HiN & Hmin).
        assert (Hif : i <= f).
        { destruct (decide (i <= f)); [done|]. exfalso.
          apply (Hmin f); [lia|]. rewrite Hs'ne by lia. apply Hab. lia. }
        split; simpl; try done; try lia.
        * intros k Hk. destruct (decide (k = e)) as [->|]; [eauto|].
          destruct (decide (k < e)).
          -- rewrite Hs'ne by done. apply Hb. lia.
          -- destruct (lookup_lt_is_Some_2 s' k) as [[b|] Hb']; [lia|eauto|].
             exfalso. apply (Hmin k); [lia|done].
        * intros k Hk. rewrite Hs'ne by lia. apply Hab. lia.
        * intros Hf0. destruct (decide (f - 1 = e)) as [->|]; [eauto|].
          rewrite Hs'ne by done. auto.
      + exfalso. eapply scan_up_None; [exact E| |exact HNone0]. lia.
  Qed.

  Lemma inv_del t h a : inv t h -> a ∈ h ->
    exists t', cell_step M t (DelAtom a) = Ok t' /\ inv t' (h ∖ {[a]}).
  Proof.
    intros I Ha. destruct t as [[s n e f] g]. pose proof I as I0.
    destruct I as [Hl He Hf Hef HeN Hb Hab Hlast Hocc Hn Ht]; simpl in *.
    destruct (proj1 (in_h _ _ _ I0) Ha) as [p Hp]; simpl in Hp.
    rewrite (proj2 (Ht a p) Hp).
    assert (Hpl : p < M) by (rewrite <- Hl; by eapply lookup_lt_Some).
    unfold cell_delete; simpl. unfold aset. rewrite decide_True by lia. simpl.
    eexists. split; [reflexivity|].
    set (s' := <[p:=None]> s).
    assert (Hs'p : s' !! p = Some None) by (apply list_lookup_insert; lia).
    assert (Hs'ne : forall i, i <> p -> s' !! i = s !! i)
      by (intros; by apply list_lookup_insert_ne).
    assert (Hl' : length s' = M) by (subst s'; by rewrite insert_length).
    assert (Hep : e <> p) by (intros ->; congruence).
    assert (Hpf : p < f).
    { destruct (decide (p < f)); [done|]. rewrite Hab in Hp by lia. done. }
    destruct (scan_down_spec s' f) as (D1 & D2 & D3); [lia|].
    fold s'. set (f' := scan_down s' f) in *.
    assert (Helem : elements h ≡ₚ a :: elements (h ∖ {[a]})).
    { rewrite <- elements_union_singleton by set_solver.
      rewrite <- union_difference_singleton_L by done. done. }
    assert (Habove : forall i, f' <= i < M -> s' !! i = Some None).
    { intros i Hi. destruct (decide (i < f)); [apply D2; lia|].
      rewrite Hs'ne by lia. apply Hab. lia. }
    set (e' := if decide (p < e) then p else e).
    assert (He'le : e' <= p /\ e' <= e).
    { subst e'. destruct (decide (p < e)); lia. }
    assert (Hbelow : forall i, i < e' -> exists b, s' !! i = Some (Some b)).
    { intros i Hi. rewrite Hs'ne by lia. apply Hb. lia. }
    split; simpl; try done.
    - lia.
    - lia.
    - destruct (decide (e' <= f')); [done|].
      destruct (Hbelow f') as [b Hb']; [lia|]. rewrite Habove in Hb' by lia. done.
    - subst e'. destruct (decide (p < e)); [done|]. by rewrite Hs'ne.
    - apply (Permutation_cons_inv (a:=a)). rewrite <- Helem, <- Hocc.
      by apply occ_insert_None.
    - rewrite size_difference by set_solver. rewrite size_singleton.
      assert (size h <> 0). { apply size_non_empty_iff. set_solver. } lia.
    - intros b q. destruct (decide (b = a)) as [->|Hba].
      + rewrite lookup_delete. split; [done|]. intros Hq.
        destruct (decide (q = p)) as [->|]; [congruence|].
        rewrite Hs'ne in Hq by done. apply Ht in Hq.
        apply Ht in Hp. congruence.
      + rewrite lookup_delete_ne by done. rewrite Ht.
        destruct (decide (q = p)) as [->|]; [|by rewrite Hs'ne].
        rewrite Hs'p, Hp. split; congruence.
  Qed.

  Lemma inv_represents t h : inv t h -> represents t h.
  Proof.
    intros I. split; [|split; [apply I|apply I]].
    unfold cell_atoms. change (omap id ?x) with (occ x).
    rewrite occ_take; [apply I|]. intros i Hi. apply (i_above _ _ I).
    rewrite (i_len _ _ I) in Hi. lia.
  Qed.

  Lemma inv_run ops : forall t h, inv t h -> proper (M - 1) h ops ->
    exists t', run (cell_step M) t ops = Ok t' /\ inv t' (held h ops).
  Proof.
    induction ops as [|o ops IH]; intros t h I Hp; simpl; [eauto|].
    destruct Hp as [Ho Hp]. destruct o as [a|a].
    - destruct Ho as [Ha Hsz]. destruct (inv_add t h a I Ha Hsz) as (t' & -> & I').
      simpl. apply IH; done.
    - destruct (inv_del t h a I Ho) as (t' & -> & I'). simpl. apply IH; done.
  Qed.
End Inv.
