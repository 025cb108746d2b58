From Verif Require Import Base AtomMapModel AtomMapSpec.
From stdpp Require Import gmap.

Lemma erase_perm e l : e ∈ l -> e :: erase e l ≡ₚ l.
Proof.
  induction l as [|x l IH]; intros H; [by apply elem_of_nil in H|]. simpl.
  destruct (decide (x = e)) as [->|Hne]; [done|].
  apply elem_of_cons in H as [->|H]; [done|].
  rewrite Permutation_swap. by rewrite IH.
Qed.

Lemma candidates_elem l id p : p ∈ candidates l id <-> (id, p) ∈ l.
Proof.
  unfold candidates. rewrite elem_of_list_omap. split.
  - intros ([k q] & H1 & H2). simpl in H2. case_decide; simplify_eq. done.
  - intros H. exists (id, p). split; [done|]. simpl. by rewrite decide_True.
Qed.

Lemma filter_split {A} (f : A -> bool) l :
  length (List.filter f l) + length (List.filter (fun x => negb (f x)) l) = length l.
Proof. induction l as [|x l IH]; simpl; [done|]. destruct (f x); simpl; lia. Qed.

Section P.
  Variable idof : ptr -> Z.
  Variable choose : list ptr -> nat.

  Lemma pick_Some l id q : pick choose l id = Some q -> (id, q) ∈ l.
  Proof.
    unfold pick. intros H. apply candidates_elem. by eapply elem_of_list_lookup_2.
  Qed.
  Lemma pick_None l id : pick choose l id = None -> forall q, (id, q) ∉ l.
  Proof.
    unfold pick. intros H q Hq. apply candidates_elem in Hq.
    destruct (candidates l id) as [|x c] eqn:E; [by apply elem_of_nil in Hq|].
    apply lookup_ge_None in H. pose proof (Nat.mod_upper_bound (choose (x :: c)) (length (x :: c))).
    simpl in *. lia.
  Qed.

  (* state of the map m against contents c *)
  Record minv (m : amap) (c : contents) : Prop := {
    m_disj : locals c ## ghosts c;
    m_slot : forall i p, aptrs m !! i = Some (Some p) ->
               idof p = Z.of_nat i /\ p ∈ locals c ∪ ghosts c;
    m_local : forall p, p ∈ locals c -> (0 <= idof p)%Z /\ aptrs m !! Z.to_nat (idof p) = Some (Some p);
    m_ghost : forall p, p ∈ ghosts c <->
        (exists i, aptrs m !! i = Some (Some p) /\ p ∉ locals c) \/ (idof p, p) ∈ gmm m;
    m_gkey : forall k p, (k, p) ∈ gmm m -> k = idof p /\ (0 <= k)%Z /\
        exists q, aptrs m !! Z.to_nat k = Some (Some q) /\ q <> p;
    m_nodup : NoDup (gmm m);
    m_nl : nLoc m = Z.of_nat (size (locals c));
    m_ng : nGhost m = Z.of_nat (size (ghosts c));
  }.

  Lemma minv_init cap : minv (amap_allocate cap) (Contents ∅ ∅).
  Proof.
    split; simpl.
    - set_solver.
    - intros i p H. apply lookup_replicate_1 in H as [? _]. done.
    - set_solver.
    - intros p. split; [set_solver|]. intros [(i & H & _)|H].
      + apply lookup_replicate_1 in H as [? _]. done.
      + by apply elem_of_nil in H.
    - intros k p H. by apply elem_of_nil in H.
    - constructor.
    - done.
    - done.
  Qed.

  Lemma in_range_true m id : in_range m id = true <-> (0 <= id < Z.of_nat (length (aptrs m)))%Z.
  Proof. unfold in_range. by rewrite bool_decide_eq_true. Qed.

  Lemma slot_lookup m id o : in_range m id = true -> slot m id = o <-> aptrs m !! Z.to_nat id = Some o.
  Proof.
    rewrite in_range_true. intros H. unfold slot.
    destruct (lookup_lt_is_Some_2 (aptrs m) (Z.to_nat id)) as [x Hx]; [lia|]. rewrite Hx.
    split; congruence.
  Qed.

  Lemma find_ok m c id : minv m c -> in_range m id = true ->
    exists r, map_find m id = Ok r /\ find_correct idof c id r.
  Proof.
    intros I Hr. unfold map_find. rewrite Hr. eexists. split; [done|].
    pose proof (proj1 (in_range_true m id) Hr) as Hid.
    destruct (slot m id) as [p|] eqn:E; apply slot_lookup in E; try done; simpl.
    - destruct (m_slot _ _ I _ _ E) as [Hp Hin]. split; [lia|].
      destruct (decide (p ∈ locals c)); [by left|]. right. split; [set_solver|].
      intros q Hq Hqid. destruct (m_local _ _ I _ Hq) as [_ Hq']. rewrite Hqid, E in Hq'. congruence.
    - intros q [Hq|Hq]%elem_of_union Hqid.
      + destruct (m_local _ _ I _ Hq) as [_ Hq']. rewrite Hqid, E in Hq'. congruence.
      + apply (m_ghost _ _ I) in Hq as [(i & Hi & _)|Hq].
        * pose proof (m_slot _ _ I _ _ Hi) as [Hi' _].
          replace i with (Z.to_nat id) in Hi by lia. congruence.
        * apply (m_gkey _ _ I) in Hq as (_ & _ & q' & Hq' & _). rewrite Hqid, E in Hq'. congruence.
  Qed.

  Lemma nothing_at m c i p : minv m c -> aptrs m !! i = Some None -> p ∈ locals c ∪ ghosts c ->
    idof p <> Z.of_nat i.
  Proof.
    intros I Hi [Hp|Hp]%elem_of_union Hid.
    - destruct (m_local _ _ I _ Hp) as [_ H]. rewrite Hid, Nat2Z.id in H. congruence.
    - apply (m_ghost _ _ I) in Hp as [(j & Hj & _)|Hp].
      + destruct (m_slot _ _ I _ _ Hj) as [Hj' _].
        replace j with i in Hj by lia. congruence.
      + apply (m_gkey _ _ I) in Hp as (_ & _ & q & Hq & _). rewrite Hid, Nat2Z.id in Hq. congruence.
  Qed.

  Lemma size_add (X : gset ptr) p : p ∉ X -> Z.of_nat (size ({[p]} ∪ X)) = (Z.of_nat (size X) + 1)%Z.
  Proof. intros. rewrite size_union by set_solver. rewrite size_singleton. lia. Qed.
  Lemma size_del (X : gset ptr) p : p ∈ X -> Z.of_nat (size (X ∖ {[p]})) = (Z.of_nat (size X) - 1)%Z.
  Proof.
    intros H. pose proof (size_add (X ∖ {[p]}) p ltac:(set_solver)) as E.
    rewrite <- union_difference_singleton_L in E by done. lia.
  Qed.

  Lemma addLocal_inv m c p m' : minv m c -> p ∉ locals c -> p ∉ ghosts c ->
    addLocal idof m p = Ok m' -> minv m' (Contents ({[p]} ∪ locals c) (ghosts c)).
  Proof.
    intros I Hl Hg. unfold addLocal. destruct (in_range m (idof p)) eqn:Hr; [|done].
    destruct (slot m (idof p)) eqn:E; [done|]. intros [= <-].
    apply slot_lookup in E; [|done]. pose proof (proj1 (in_range_true _ _) Hr) as Hid.
    assert (Hlen : Z.to_nat (idof p) < length (aptrs m)) by lia.
    split; simpl; unfold set_slot.
    - pose proof (m_disj _ _ I). set_solver.
    - intros i q Hq. apply list_lookup_insert_Some in Hq as [(<- & [= <-] & _)|(Hne & Hq)].
      + split; [lia|set_solver].
      + apply (m_slot _ _ I) in Hq. set_solver.
    - intros q [->%elem_of_singleton|Hq]%elem_of_union.
      + split; [lia|]. by apply list_lookup_insert.
      + destruct (m_local _ _ I _ Hq) as [H0 H1]. split; [done|].
        rewrite list_lookup_insert_ne; [done|]. intros He. congruence.
    - intros q. rewrite (m_ghost _ _ I). split.
      + intros [(i & Hi & Hn)|H]; [|by right]. left. exists i.
        assert (i <> Z.to_nat (idof p)) by congruence.
        rewrite list_lookup_insert_ne by done. split; [done|].
        intros [->%elem_of_singleton|]%elem_of_union; [|done].
        apply (m_slot _ _ I) in Hi. lia.
      + intros [(i & Hi & Hn)|H]; [|by right]. left. exists i.
        apply list_lookup_insert_Some in Hi as [(<- & [= <-] & _)|(Hne & Hq)]; [set_solver|].
        split; [done|]. set_solver.
    - intros k q Hk. destruct (m_gkey _ _ I _ _ Hk) as (-> & H0 & q' & Hq' & Hne).
      split; [done|]. split; [done|]. exists q'. rewrite list_lookup_insert_ne; [done|congruence].
    - apply I.
    - rewrite size_add by done. rewrite (m_nl _ _ I). done.
    - apply (m_ng _ _ I).
  Qed.

  Lemma addGhost_inv m c p m' : minv m c -> p ∉ locals c -> p ∉ ghosts c ->
    addGhost idof m p = Ok m' -> minv m' (Contents (locals c) ({[p]} ∪ ghosts c)).
  Proof.
    intros I Hl Hg. unfold addGhost. destruct (in_range m (idof p)) eqn:Hr; [|done].
    pose proof (proj1 (in_range_true _ _) Hr) as Hid.
    assert (Hlen : Z.to_nat (idof p) < length (aptrs m)) by lia.
    destruct (slot m (idof p)) as [r|] eqn:E; intros [= <-]; (apply slot_lookup in E; [|done]).
    - split; simpl.
      + pose proof (m_disj _ _ I). set_solver.
      + intros i q Hq. apply (m_slot _ _ I) in Hq. set_solver.
      + apply I.
      + intros q. rewrite elem_of_union, elem_of_singleton, (m_ghost _ _ I), elem_of_app.
        rewrite elem_of_list_singleton. split.
        * intros [->|[H|H]]; auto.
        * intros [H|[H|[= _ ->]]]; auto.
      + intros k q [H|[= -> ->]%elem_of_list_singleton]%elem_of_app; [by apply I|].
        split; [done|]. split; [lia|]. exists r. split; [done|]. intros ->.
        apply (m_slot _ _ I) in E. set_solver.
      + apply NoDup_app. split; [apply I|]. split; [|apply NoDup_singleton].
        intros x Hx Hx'%elem_of_list_singleton. subst x.
        apply Hg. apply (m_ghost _ _ I). by right.
      + apply I.
      + pose proof (m_ng _ _ I) as Hn. unfold nGhost in *. simpl.
        rewrite app_length. simpl. rewrite size_add by done. lia.
    - split; simpl; unfold set_slot.
      + pose proof (m_disj _ _ I). set_solver.
      + intros i q Hq. apply list_lookup_insert_Some in Hq as [(<- & [= <-] & _)|(Hne & Hq)].
        * split; [lia|set_solver].
        * apply (m_slot _ _ I) in Hq. set_solver.
      + intros q Hq. destruct (m_local _ _ I _ Hq) as [H0 H1]. split; [done|].
        rewrite list_lookup_insert_ne; [done|]. intros He. congruence.
      + intros q. rewrite elem_of_union, elem_of_singleton, (m_ghost _ _ I). split.
        * intros [->|[(i & Hi & Hn)|H]]; [|left|by right].
          -- left. exists (Z.to_nat (idof p)). rewrite list_lookup_insert by done. done.
          -- exists i. rewrite list_lookup_insert_ne by congruence. done.
        * intros [(i & Hi & Hn)|H]; [|by auto].
          apply list_lookup_insert_Some in Hi as [(<- & [= <-] & _)|(Hne & Hq)]; [by left|].
          right. left. eauto.
      + intros k q Hk. destruct (m_gkey _ _ I _ _ Hk) as (-> & H0 & q' & Hq' & Hne).
        split; [done|]. split; [done|]. exists q'. rewrite list_lookup_insert_ne; [done|congruence].
      + apply I.
      + apply I.
      + pose proof (m_ng _ _ I) as Hn. unfold nGhost in *. simpl.
        rewrite size_add by done. lia.
  Qed.

  (* emptying a slot that holds p (p leaves the contents), then promoting *)
  Lemma vacate_inv m c p L' G' nl ng : minv m c -> in_range m (idof p) = true ->
    slot m (idof p) = Some p ->
    (L' ∪ G' = (locals c ∪ ghosts c) ∖ {[p]}) -> L' ⊆ locals c -> G' ⊆ ghosts c ->
    nl = Z.of_nat (size L') ->
    (ng + Z.of_nat (length (gmm m)) = Z.of_nat (size G'))%Z ->
    minv (promote choose (AMap (set_slot m (idof p) None) (gmm m) nl ng) (idof p)) (Contents L' G').
  Proof.
    intros I Hr E HLG HL HG Hnl Hng. apply slot_lookup in E; [|done].
    pose proof (proj1 (in_range_true _ _) Hr) as Hid.
    assert (Hlen : Z.to_nat (idof p) < length (aptrs m)) by lia.
    pose proof (m_disj _ _ I) as Hd.
    assert (HL' : forall q, q ∈ L' <-> q ∈ locals c /\ q <> p).
    { intros q. split; [set_solver|]. intros [H1 H2].
      assert (q ∈ L' ∪ G') by (rewrite HLG; set_solver). set_solver. }
    assert (HG' : forall q, q ∈ G' <-> q ∈ ghosts c /\ q <> p).
    { intros q. split; [set_solver|]. intros [H1 H2].
      assert (q ∈ L' ∪ G') by (rewrite HLG; set_solver). set_solver. }
    assert (Hlocal_ne : forall q, q ∈ L' -> Z.to_nat (idof q) <> Z.to_nat (idof p)).
    { intros q [Hq Hqp]%HL' He. destruct (m_local _ _ I _ Hq) as [_ H1]. rewrite He, E in H1. congruence. }
    unfold promote, set_slot; simpl.
    destruct (pick choose (gmm m) (idof p)) as [r|] eqn:Hpick.
    - apply pick_Some in Hpick.
      destruct (m_gkey _ _ I _ _ Hpick) as (Hrid & _ & q' & Hq' & Hq'r).
      assert (q' = p) as -> by congruence.
      pose proof (erase_perm _ _ Hpick) as Hperm.
      assert (Hnd : NoDup ((idof p, r) :: erase (idof p, r) (gmm m))) by (rewrite Hperm; apply I).
      apply NoDup_cons in Hnd as [Hnin Hnd].
      assert (Hin : forall e, e ∈ gmm m <-> e = (idof p, r) \/ e ∈ erase (idof p, r) (gmm m)).
      { intros e. rewrite <- Hperm at 1. by rewrite elem_of_cons. }
      assert (HrG : r ∈ ghosts c) by (apply (m_ghost _ _ I); right; by rewrite <- Hrid).
      unfold set_slot; simpl. rewrite list_insert_insert.
      split; simpl.
      + pose proof (m_disj _ _ I) as D0. clear -D0 HL HG HL' HG' HLG. set_solver.
      + intros i q Hq. apply list_lookup_insert_Some in Hq as [(<- & [= <-] & _)|(Hne & Hq)].
        * split; [lia|]. assert (r ∈ G') by (apply HG'; done). set_solver.
        * destruct (m_slot _ _ I _ _ Hq) as [Hq1 Hq2]. split; [done|].
          rewrite HLG. apply elem_of_difference. split; [done|].
          intros ->%elem_of_singleton. lia.
      + intros q Hq. pose proof (Hlocal_ne _ Hq). apply HL' in Hq as [Hq Hqp].
        destruct (m_local _ _ I _ Hq). split; [done|]. by rewrite list_lookup_insert_ne.
      + intros q. rewrite HG', (m_ghost _ _ I). split.
        * intros [[(i & Hi & Hn)|H] Hqp].
          -- left. exists i. assert (i <> Z.to_nat (idof p)) by congruence.
             rewrite list_lookup_insert_ne by done. split; [done|]. set_solver.
          -- apply Hin in H as [[= H1 ->]|H]; [|by right].
             left. exists (Z.to_nat (idof p)). rewrite list_lookup_insert by done.
             split; [done|]. set_solver.
        * intros [(i & Hi & Hn)|H].
          -- apply list_lookup_insert_Some in Hi as [(<- & [= <-] & _)|(Hne & Hq)].
             ++ split; [|done]. right. by rewrite <- Hrid.
             ++ assert (q <> p). { intros ->. apply (m_slot _ _ I) in Hq. lia. }
                split; [|done]. left. exists i. split; [done|].
                intros Hql. apply Hn. apply HL'. done.
          -- assert ((idof q, q) ∈ gmm m) as Hq by (apply Hin; by right).
             split; [by right|]. intros ->.
             destruct (m_gkey _ _ I _ _ Hq) as (_ & _ & q2 & Hq2 & Hne2). congruence.
      + intros k q Hk. assert ((k, q) ∈ gmm m) as Hkq by (apply Hin; by right).
        destruct (m_gkey _ _ I _ _ Hkq) as (-> & H0 & q2 & Hq2 & Hne2).
        split; [done|]. split; [done|].
        destruct (decide (Z.to_nat (idof q) = Z.to_nat (idof p))) as [He|He].
        * rewrite He. exists r. rewrite list_lookup_insert by done. split; [done|].
          intros <-. apply Hnin. rewrite <- Hrid in Hk. done.
        * exists q2. by rewrite list_lookup_insert_ne.
      + done.
      + done.
      + unfold nGhost; simpl. assert (length (gmm m) = S (length (erase (idof p, r) (gmm m)))) as Hl.
        { rewrite <- Hperm at 1. done. } lia.
    - pose proof (pick_None _ _ Hpick) as Hno.
      split; simpl.
      + pose proof (m_disj _ _ I) as D0. clear -D0 HL HG HL' HG' HLG. set_solver.
      + intros i q Hq. apply list_lookup_insert_Some in Hq as [(<- & ? & _)|(Hne & Hq)]; [done|].
        destruct (m_slot _ _ I _ _ Hq) as [Hq1 Hq2]. split; [done|].
        rewrite HLG. apply elem_of_difference. split; [done|].
        intros ->%elem_of_singleton. lia.
      + intros q Hq. pose proof (Hlocal_ne _ Hq). apply HL' in Hq as [Hq Hqp].
        destruct (m_local _ _ I _ Hq). split; [done|]. by rewrite list_lookup_insert_ne.
      + intros q. rewrite HG', (m_ghost _ _ I). split.
        * intros [[(i & Hi & Hn)|H] Hqp]; [|by right].
          left. exists i. assert (i <> Z.to_nat (idof p)) by congruence.
          rewrite list_lookup_insert_ne by done. split; [done|]. set_solver.
        * intros [(i & Hi & Hn)|H].
          -- apply list_lookup_insert_Some in Hi as [(<- & ? & _)|(Hne & Hq)]; [done|].
             assert (q <> p). { intros ->. apply (m_slot _ _ I) in Hq. lia. }
             split; [|done]. left. exists i. split; [done|].
             intros Hql. apply Hn. apply HL'. done.
          -- split; [by right|]. intros ->. by apply (Hno p).
      + intros k q Hk. destruct (m_gkey _ _ I _ _ Hk) as (-> & H0 & q2 & Hq2 & Hne2).
        split; [done|]. split; [done|]. exists q2.
        rewrite list_lookup_insert_ne; [done|]. intros He.
        apply (Hno q). replace (idof p) with (idof q) by lia. done.
      + apply I.
      + done.
      + done.
  Qed.

  Lemma removeLocal_inv m c p m' : minv m c -> p ∉ ghosts c ->
    removeLocal idof choose m p = Ok m' ->
    p ∈ locals c /\ minv m' (Contents (locals c ∖ {[p]}) (ghosts c)).
  Proof.
    intros I Hg. unfold removeLocal. destruct (in_range m (idof p)) eqn:Hr; [|done].
    case_decide as E; [|done]. intros [= <-].
    assert (Hp : p ∈ locals c).
    { pose proof E as E'. apply slot_lookup in E'; [|done]. apply (m_slot _ _ I) in E'. set_solver. }
    split; [done|]. pose proof (m_disj _ _ I).
    apply (vacate_inv m c p); try done.
    - apply set_eq. set_solver.
    - set_solver.
    - rewrite size_del by done. rewrite (m_nl _ _ I). done.
    - apply (m_ng _ _ I).
  Qed.

  Lemma removeGhost_inv m c p m' : minv m c -> p ∉ locals c ->
    removeGhost idof choose m p = Ok m' ->
    p ∈ ghosts c /\ minv m' (Contents (locals c) (ghosts c ∖ {[p]})).
  Proof.
    intros I Hl. unfold removeGhost. destruct (in_range m (idof p)) eqn:Hr; [|done].
    pose proof (m_disj _ _ I).
    case_decide as E.
    - intros [= <-].
      assert (Hp : p ∈ ghosts c).
      { pose proof E as E'. apply slot_lookup in E'; [|done]. apply (m_slot _ _ I) in E'. set_solver. }
      split; [done|].
      apply (vacate_inv m c p); try done.
      + apply set_eq. set_solver.
      + set_solver.
      + apply I.
      + rewrite size_del by done. pose proof (m_ng _ _ I) as Hn. unfold nGhost in Hn. lia.
    - destruct (slot m (idof p)) as [r|] eqn:Es; [|done].
      case_decide as Hin; [|done]. intros [= <-].
      apply slot_lookup in Es; [|done].
      assert (Hp : p ∈ ghosts c) by (apply (m_ghost _ _ I); by right).
      split; [done|].
      pose proof (erase_perm _ _ Hin) as Hperm.
      assert (Hnd : NoDup ((idof p, p) :: erase (idof p, p) (gmm m))) by (rewrite Hperm; apply I).
      apply NoDup_cons in Hnd as [Hnin Hnd].
      assert (Hmem : forall e, e ∈ gmm m <-> e = (idof p, p) \/ e ∈ erase (idof p, p) (gmm m)).
      { intros e. rewrite <- Hperm at 1. by rewrite elem_of_cons. }
      assert (Hnslot : forall i, aptrs m !! i <> Some (Some p)).
      { intros i Hi. destruct (m_slot _ _ I _ _ Hi) as [Hi' _].
        rewrite Hi', Nat2Z.id in Es. congruence. }
      split; simpl.
      + set_solver.
      + intros i q Hq. destruct (m_slot _ _ I _ _ Hq) as [H1 H2]. split; [done|].
        assert (q <> p) by (intros ->; by eapply Hnslot). set_solver.
      + apply I.
      + intros q. rewrite elem_of_difference, not_elem_of_singleton, (m_ghost _ _ I). split.
        * intros [[Hi|H1] Hqp]; [by left|]. right. apply Hmem in H1 as [[= _ ->]|]; done.
        * intros [(i & Hi & Hn)|H1].
          -- split; [left; eauto|]. intros ->. by eapply Hnslot.
          -- split; [right; apply Hmem; by right|]. intros ->. done.
      + intros k q Hk. apply I. apply Hmem. by right.
      + done.
      + apply I.
      + rewrite size_del by done. pose proof (m_ng _ _ I) as Hn. unfold nGhost in *. simpl.
        assert (length (gmm m) = S (length (erase (idof p, p) (gmm m)))) as Hlen.
        { rewrite <- Hperm at 1. done. } lia.
  Qed.

  (* clearGhosts: after processing a prefix of the ghosts *)
  Record cinv (m : amap) (c : contents) (rest : gset ptr) : Prop := {
    c_slot : forall i p, aptrs m !! i = Some (Some p) ->
               idof p = Z.of_nat i /\ p ∈ locals c ∪ rest;
    c_local : forall p, p ∈ locals c -> (0 <= idof p)%Z /\ aptrs m !! Z.to_nat (idof p) = Some (Some p);
    c_gmm : gmm m = [];
    c_nl : nLoc m = Z.of_nat (size (locals c));
    c_range : forall p, p ∈ rest -> in_range m (idof p) = true;
  }.

  (* number of slots occupied by elements of a set *)
  Definition occupied (m : amap) (p : ptr) : bool := bool_decide (Some p ∈ aptrs m).
  Definition nocc (m : amap) (l : list ptr) : nat := length (List.filter (occupied m) l).

  Lemma cinv_elem m c rest p : cinv m c rest -> in_range m (idof p) = true ->
     (Some p ∈ aptrs m <-> slot m (idof p) = Some p).
  Proof.
    intros I Hr. rewrite slot_lookup by done. split.
    - intros [i Hi]%elem_of_list_lookup. destruct (c_slot _ _ _ I _ _ Hi) as [H _].
      by rewrite H, Nat2Z.id.
    - intros H. by eapply elem_of_list_lookup_2.
  Qed.

  Lemma clear_run gs : forall m c, NoDup gs -> cinv m c (list_to_set gs) ->
    (forall p, p ∈ gs -> p ∉ locals c) ->
    (nGhD m = Z.of_nat (nocc m gs)) ->
    exists m', run (clear_one idof) m gs = Ok m' /\ cinv m' c ∅ /\ nGhD m' = 0%Z /\
       length (aptrs m') = length (aptrs m).
  Proof.
    induction gs as [|p gs IH]; intros m c Hnd I Hdis Hn; simpl.
    - eexists. split; [done|]. split; [done|]. split; [|done]. by rewrite Hn.
    - apply NoDup_cons in Hnd as [Hpgs Hnd].
      assert (Hr : in_range m (idof p) = true) by (apply (c_range _ _ _ I); set_solver).
      unfold clear_one. rewrite Hr.
      pose proof (cinv_elem _ _ _ p I Hr) as Hel.
      unfold nocc in Hn. simpl in Hn.
      case_decide as E; simpl.
      + set (m1 := AMap (set_slot m (idof p) None) (gmm m) (nLoc m) (nGhD m - 1)).
        pose proof (proj1 (in_range_true _ _) Hr) as Hid.
        assert (Hlen : Z.to_nat (idof p) < length (aptrs m)) by lia.
        assert (Hlen1 : length (aptrs m1) = length (aptrs m)).
        { simpl. unfold set_slot. by rewrite insert_length. }
        assert (Hsl := E). apply slot_lookup in Hsl; [|done].
        assert (I1 : cinv m1 c (list_to_set gs)).
        { split; simpl; unfold set_slot.
          - intros i q Hq. apply list_lookup_insert_Some in Hq as [(<- & ? & _)|(Hne & Hq)]; [done|].
            destruct (c_slot _ _ _ I _ _ Hq) as [H1 H2]. split; [done|].
            assert (q <> p). { intros ->. lia. } set_solver.
          - intros q Hq. destruct (c_local _ _ _ I _ Hq) as [H0 H1]. split; [done|].
            rewrite list_lookup_insert_ne; [done|]. intros He. rewrite He, H1 in Hsl.
            injection Hsl as ->. apply (Hdis p); [set_solver|done].
          - apply I.
          - apply I.
          - intros q Hq. unfold in_range. rewrite Hlen1.
            apply (c_range _ _ _ I q). set_solver. }
        assert (Hocc : nocc m1 gs = length (List.filter (occupied m) gs)).
        { unfold nocc. f_equal. apply List.filter_ext_in. intros q Hq%elem_of_list_In.
          unfold occupied. apply bool_decide_ext. split.
          - intros [i Hi]%elem_of_list_lookup. simpl in Hi.
            unfold set_slot in Hi. apply list_lookup_insert_Some in Hi as [(<- & ? & _)|(Hne & Hi)]; [done|].
            by eapply elem_of_list_lookup_2.
          - intros [i Hi]%elem_of_list_lookup. apply elem_of_list_lookup. exists i. simpl.
            unfold set_slot. rewrite list_lookup_insert_ne; [done|]. intros <-. rewrite Hsl in Hi.
            injection Hi as ->. done. }
        assert (occupied m p = true) as Hop.
        { unfold occupied. apply bool_decide_eq_true, Hel, E. }
        rewrite Hop in Hn. simpl in Hn.
        destruct (IH m1 c) as (m' & Hm' & Hc' & Hn' & Hl'); try done.
        * intros q Hq. apply Hdis. set_solver.
        * rewrite Hocc. simpl. lia.
        * exists m'. split; [done|]. split; [done|]. split; [done|]. congruence.
      + assert (occupied m p = false) as Hop.
        { unfold occupied. apply bool_decide_eq_false. by rewrite Hel. }
        rewrite Hop in Hn.
        apply IH; try done.
        * split; try apply I.
          -- intros i q Hq. destruct (c_slot _ _ _ I _ _ Hq) as [H1 H2]. split; [done|].
             assert (q <> p).
             { intros ->. apply E, Hel. by eapply elem_of_list_lookup_2. } set_solver.
          -- intros q Hq. apply I. set_solver.
        * intros q Hq. apply Hdis. set_solver.
  Qed.

  Lemma nocc_count m c gs : minv m c -> gs ≡ₚ elements (ghosts c) ->
    Z.of_nat (nocc m gs) = nGhD m.
  Proof.
    intros I Hgs.
    (* gs splits into those in a slot and those in the multimap *)
    assert (Hperm : map snd (gmm m) ≡ₚ List.filter (fun p => negb (occupied m p)) gs).
    { apply NoDup_Permutation.
      - assert (Hinj : forall e, e ∈ gmm m -> e.1 = idof e.2).
        { intros [k q] Hk. apply (m_gkey _ _ I) in Hk. simpl. tauto. }
        pose proof (m_nodup _ _ I) as Hnd. revert Hinj Hnd.
        induction (gmm m) as [|[k q] l IHl]; intros Hinj Hnd; simpl; [constructor|].
        apply NoDup_cons in Hnd as [Hnin Hnd]. constructor.
        + intros ([k' q'] & -> & Hin)%elem_of_list_fmap. simpl in *. apply Hnin.
          pose proof (Hinj (k, q') ltac:(left)) as H1.
          pose proof (Hinj (k', q') ltac:(by right)) as H2. simpl in *. subst. done.
        + apply IHl; [|done]. intros e He. apply Hinj. by right.
      - apply NoDup_ListNoDup, List.NoDup_filter, NoDup_ListNoDup. rewrite Hgs. apply NoDup_elements.
      - intros p. rewrite elem_of_list_fmap, elem_of_list_In, List.filter_In, <- elem_of_list_In.
        rewrite Hgs, elem_of_elements. split.
        + intros ([k q] & -> & Hk). simpl. destruct (m_gkey _ _ I _ _ Hk) as (-> & H0 & r & Hr & Hne).
          split; [apply (m_ghost _ _ I); by right|].
          apply negb_true_iff, bool_decide_eq_false.
          intros [i Hi]%elem_of_list_lookup. destruct (m_slot _ _ I _ _ Hi) as [Hi' _].
          rewrite Hi', Nat2Z.id in Hr. congruence.
        + intros [Hp Hocc]. apply (m_ghost _ _ I) in Hp as [(i & Hi & _)|Hp].
          * apply negb_true_iff, bool_decide_eq_false in Hocc. exfalso. apply Hocc.
            by eapply elem_of_list_lookup_2.
          * by exists (idof p, p). }
    pose proof (filter_split (occupied m) gs) as Hsplit.
    apply Permutation_length in Hperm. rewrite map_length in Hperm.
    pose proof (m_ng _ _ I) as Hn. unfold nGhost in Hn.
    assert (length gs = size (ghosts c)) by (rewrite Hgs; done).
    unfold nocc. lia.
  Qed.

  Lemma minv_gmm_slot m c p : minv m c -> p ∈ ghosts c -> in_range m (idof p) = true.
  Proof.
    intros I Hp. apply in_range_true. apply (m_ghost _ _ I) in Hp as [(i & Hi & _)|Hp].
    - pose proof (m_slot _ _ I _ _ Hi) as [-> _]. apply lookup_lt_Some in Hi. lia.
    - apply (m_gkey _ _ I) in Hp as (_ & H0 & q & Hq & _). apply lookup_lt_Some in Hq. lia.
  Qed.

  Lemma clearGhosts_inv m c gs : minv m c -> gs ≡ₚ elements (ghosts c) ->
    exists m', clearGhosts idof m gs = Ok m' /\ minv m' (Contents (locals c) ∅) /\
      length (aptrs m') = length (aptrs m).
  Proof.
    intros I Hgs. unfold clearGhosts.
    rewrite decide_True by (rewrite (m_ng _ _ I), Hgs; done).
    destruct (clear_run gs (AMap (aptrs m) [] (nLoc m) (nGhD m)) c) as (m' & Hm' & Ic & Hn & Hl).
    - rewrite Hgs. apply NoDup_elements.
    - split; simpl; try apply I.
      + intros i p Hi. destruct (m_slot _ _ I _ _ Hi) as [H1 H2]. split; [done|].
        apply elem_of_union in H2 as [|]; [set_solver|]. apply elem_of_union_r.
        apply elem_of_list_to_set. rewrite Hgs. by apply elem_of_elements.
      + done.
      + intros p Hp%elem_of_list_to_set. rewrite Hgs in Hp. apply elem_of_elements in Hp.
        exact (minv_gmm_slot m c p I Hp).
    - intros p Hp. rewrite Hgs in Hp. apply elem_of_elements in Hp.
      pose proof (m_disj _ _ I). set_solver.
    - simpl. symmetry. exact (nocc_count m c gs I Hgs).
    - exists m'. split; [done|]. split; [|done]. split; simpl.
      + set_solver.
      + apply Ic.
      + apply Ic.
      + intros p. split; [set_solver|]. intros [(i & Hi & Hnl)|H].
        * apply (c_slot _ _ _ Ic) in Hi. set_solver.
        * rewrite (c_gmm _ _ _ Ic) in H. by apply elem_of_nil in H.
      + intros k p H. rewrite (c_gmm _ _ _ Ic) in H. by apply elem_of_nil in H.
      + rewrite (c_gmm _ _ _ Ic). constructor.
      + apply Ic.
      + unfold nGhost. rewrite (c_gmm _ _ _ Ic), Hn. done.
  Qed.

  Lemma map_step_inv m c o : minv m c -> map_pre c o ->
    match map_step idof choose m o with
    | Ok m' => minv m' (contents_step c o)
    | Throw => True
    | UB => False
    end.
  Proof.
    intros I Hp. destruct o as [p|p|p|p|gs]; simpl in *.
    - destruct (addLocal idof m p) eqn:E; [|done|].
      + destruct Hp. by eapply addLocal_inv.
      + unfold addLocal in E. repeat case_match; done.
    - destruct (removeLocal idof choose m p) eqn:E; [|done|].
      + by apply removeLocal_inv with (c:=c) in E as [_ ?].
      + unfold removeLocal in E. repeat case_match; done.
    - destruct (addGhost idof m p) eqn:E; [|done|].
      + destruct Hp. by eapply addGhost_inv.
      + unfold addGhost in E. repeat case_match; done.
    - destruct (removeGhost idof choose m p) eqn:E; [|done|].
      + by apply removeGhost_inv with (c:=c) in E as [_ ?].
      + unfold removeGhost in E. repeat case_match; done.
    - destruct (clearGhosts_inv m c gs I Hp) as (m' & -> & I' & _). done.
  Qed.

  Lemma map_run_inv ops : forall m c, minv m c -> respects idof choose m c ops ->
    exists m' c', map_run idof choose m c ops = Some (m', c') /\ minv m' c'.
  Proof.
    induction ops as [|o ops IH]; intros m c I H; simpl; [eauto|].
    destruct H as [Hp H]. pose proof (map_step_inv m c o I Hp) as Hs.
    destruct (map_step idof choose m o); [eauto..|done].
  Qed.

  Lemma clear_run_len gs : forall m m', run (clear_one idof) m gs = Ok m' ->
    length (aptrs m') = length (aptrs m).
  Proof.
    induction gs as [|p gs IH]; intros m m' H; simpl in H.
    - by injection H as <-.
    - destruct (clear_one idof m p) as [m1| |] eqn:E; simpl in H; try done.
      apply IH in H. rewrite H. unfold clear_one in E.
      repeat case_match; simplify_eq/=; unfold set_slot; by rewrite ?insert_length.
  Qed.

  Lemma map_step_len m o m' : map_step idof choose m o = Ok m' ->
    length (aptrs m') = length (aptrs m).
  Proof.
    intros H0. destruct o as [p|p|p|p|gs]; simpl in H0;
      unfold addLocal, removeLocal, addGhost, removeGhost, promote, set_slot in H0.
    - repeat case_match; simplify_eq/=; by rewrite ?insert_length.
    - repeat case_match; simplify_eq/=; unfold set_slot; simpl; by rewrite ?insert_length.
    - repeat case_match; simplify_eq/=; by rewrite ?insert_length.
    - repeat case_match; simplify_eq/=; unfold set_slot; simpl; by rewrite ?insert_length.
    - unfold clearGhosts in H0. destruct (decide _) in H0; [|done].
      apply clear_run_len in H0. done.
  Qed.

  Lemma map_run_len ops : forall m c m' c', map_run idof choose m c ops = Some (m', c') ->
    length (aptrs m') = length (aptrs m).
  Proof.
    induction ops as [|o ops IH]; intros m c m' c' H; simpl in H; [by simplify_eq|].
    destruct (map_step idof choose m o) eqn:E; [|eauto|done].
    apply IH in H. rewrite H. by eapply map_step_len.
  Qed.

  Lemma addLocal_Ok_iff m c p : minv m c -> p ∉ locals c -> p ∉ ghosts c ->
    (is_ok (addLocal idof m p) <->
      (0 <= idof p < Z.of_nat (length (aptrs m)))%Z /\
     forall q, q ∈ locals c ∪ ghosts c -> idof q <> idof p).
  Proof.
    intros I Hl Hg. unfold addLocal. rewrite <- in_range_true.
    destruct (in_range m (idof p)) eqn:Hr.
    2:{ split; [intros [? ?]; done|intros [? _]; done]. }
    destruct (slot m (idof p)) as [q|] eqn:E.
    - split; [intros [? ?]; done|]. intros [_ H]. exfalso.
      apply slot_lookup in E; [|done]. apply (m_slot _ _ I) in E as [Hq1 Hq2].
      apply (H q Hq2). apply in_range_true in Hr. lia.
    - split; [|intros _; eexists; done]. intros _. split; [done|]. intros q Hq Hid.
      apply slot_lookup in E; [|done].
      eapply nothing_at in E; [|done|exact Hq]. apply in_range_true in Hr. lia.
  Qed.

  Lemma removeLocal_Ok_iff m c p : minv m c -> p ∉ ghosts c ->
    (is_ok (removeLocal idof choose m p) <-> p ∈ locals c).
  Proof.
    intros I Hg. split.
    - intros [m' H]. by eapply removeLocal_inv in H as [? _].
    - intros Hp. destruct (m_local _ _ I _ Hp) as [H0 H1]. unfold removeLocal.
      assert (Hr : in_range m (idof p) = true).
      { apply in_range_true. apply lookup_lt_Some in H1. lia. }
      rewrite Hr. rewrite decide_True by (by apply slot_lookup). by eexists.
  Qed.

  Lemma removeGhost_Ok_iff m c p : minv m c -> p ∉ locals c ->
    (is_ok (removeGhost idof choose m p) <-> p ∈ ghosts c).
  Proof.
    intros I Hl. split.
    - intros [m' H]. by eapply removeGhost_inv in H as [? _].
    - intros Hp. pose proof (minv_gmm_slot m c p I Hp) as Hr. unfold removeGhost. rewrite Hr.
      case_decide; [by eexists|].
      apply (m_ghost _ _ I) in Hp as [(i & Hi & _)|Hp].
      + exfalso. apply H. apply slot_lookup; [done|].
        pose proof (m_slot _ _ I _ _ Hi) as [-> _]. by rewrite Nat2Z.id.
      + pose proof (m_gkey _ _ I _ _ Hp) as (_ & _ & q & Hq & _).
        apply slot_lookup in Hq; [|done]. rewrite Hq, decide_True by done. by eexists.
  Qed.
End P.

(* the invariant only depends on the ids of the atoms in the map *)
Lemma minv_ext idof idof' m c :
  (forall p, p ∈ locals c ∪ ghosts c -> idof' p = idof p) -> minv idof m c -> minv idof' m c.
Proof.
  intros H I. split; try apply I.
  - intros i p Hi. destruct (m_slot _ _ _ I _ _ Hi) as [H1 H2]. by rewrite H.
  - intros p Hp. rewrite H by set_solver. by apply I.
  - intros p. split.
    + intros Hp. pose proof Hp as Hp'. apply (m_ghost _ _ _ I) in Hp as [?|Hp]; [by left|right].
      rewrite H by set_solver. done.
    + intros [?|Hp]; apply (m_ghost _ _ _ I); [by left|right].
      by destruct (m_gkey _ _ _ I _ _ Hp) as [<- _].
  - intros k p Hk. destruct (m_gkey _ _ _ I _ _ Hk) as (-> & H0 & H1).
    assert (p ∈ ghosts c) by (apply (m_ghost _ _ _ I); by right).
    rewrite H by set_solver. done.
Qed.
