(** Dynamic links (C45). *)
From Verif Require Import Base Containers SpeciesModel SpeciesProofs LinkModel.

(** ** Specification *)
(** [a] is an end of link [k]. *)
Definition end_of (k : link) (a : nat) : Prop := lk0 k = Some a \/ lk1 k = Some a.
Record links_ok (s : lmaster) : Prop := {
  lo_slots : lmRes s ++ lmSet s ≡ₚ seq 0 (length (lmLinks s));
  lo_active : forall l k, lmLinks s !! l = Some k -> (lkActive k = true <-> l ∈ lmSet s);
  lo_ends : forall l k, lmLinks s !! l = Some k -> l ∈ lmSet s ->
      exists a0 a1, lk0 k = Some a0 /\ lk1 k = Some a1 /\ a0 <> a1 /\ a0 < length (lmSets s) /\ a1 < length (lmSets s);
  lo_sets : forall a st, lmSets s !! a = Some st -> NoDup st /\
      forall l, l ∈ st <-> l ∈ lmSet s /\ exists k, lmLinks s !! l = Some k /\ end_of k a
}.
(** The link would join an atom to itself. *)
Definition distinct (s : lmaster) (o : lop) : Prop :=
  match o with
  | LAdd a0 a1 _ => a0 <> a1
  | LReset _ a0 a1 => a0 <> a1
  | LResetOne l a e0 => forall k, lmLinks s !! l = Some k -> (if e0 then lk1 k else lk0 k) <> Some a
  | _ => True
  end.
Inductive reach (lc ac : nat) : lmaster -> Prop :=
| reach_new : reach lc ac (lm_alloc lc ac)
| reach_step s o s' : reach lc ac s -> distinct s o -> lstep s o = Ok s' -> reach lc ac s'.

(** ** Proofs *)
Definition total (ss : list (list nat)) : nat := sum_list (map length ss).
Lemma sum_list_app (l1 l2 : list nat) : sum_list (l1 ++ l2) = sum_list l1 + sum_list l2.
Proof. induction l1 as [|x l1 IH]; [done|]. cbn [sum_list app] in *. cbn in *. lia. Qed.
Lemma total_insert ss a st st' : ss !! a = Some st -> total (<[a := st']> ss) + length st = total ss + length st'.
Proof.
  intros H. unfold total. rewrite (insert_take_drop ss a st') by (by eapply lookup_lt_Some).
  rewrite <- (take_drop_middle ss a st H) at 3.
  rewrite !map_app. cbn [map]. rewrite !sum_list_app. cbn. lia.
Qed.

Lemma check_bd (P : Prop) `{Decision P} : check (bool_decide P) = Ok () <-> P.
Proof. unfold check. case_bool_decide; split; intros; try done. Qed.

Lemma sets_append_Ok ss a l ss' : sets_append ss a l = Ok ss' <->
  exists st, ss !! a = Some st /\ length st < 400 /\ ss' = <[a := st ++ [l]]> ss.
Proof.
  unfold sets_append, sset_append. split.
  - intros H. apply obind_Ok in H as (st & H1 & H). apply aget_Ok in H1. apply obind_Ok in H as (st' & H2 & H).
    case_decide; [|done]. injection H2 as <-. apply aset_Ok in H as [_ ->]. eauto.
  - intros (st & H & Hl & ->). unfold aget. rewrite H. cbn [obind]. rewrite decide_True by done. cbn [obind].
    apply aset_Ok. split; [by eapply lookup_lt_Some|done].
Qed.
Lemma sets_remove_Ok ss a l ss' : sets_remove ss a l = Ok ss' ->
  exists st st', ss !! a = Some st /\ l :: st' ≡ₚ st /\ ss' = <[a := st']> ss.
Proof.
  unfold sets_remove. intros H. apply obind_Ok in H as (st & H1 & H). apply aget_Ok in H1.
  apply obind_Ok in H as (st' & H2 & H). apply set_remove_perm in H2. apply aset_Ok in H as [_ ->]. eauto.
Qed.

(** Two successive updates of the sets at different atoms. *)
Definition inv (s : lmaster) : Prop := links_ok s /\ total (lmSets s) = 2 * length (lmSet s).

(** Description of the sets: who is in the set of atom [a]. *)
Lemma sets_append2 ss a0 a1 l ss1 ss2 :
  sets_append ss a0 l = Ok ss1 -> sets_append ss1 a1 l = Ok ss2 -> a0 <> a1 ->
  length ss2 = length ss /\ total ss2 = total ss + 2 /\ a0 < length ss /\ a1 < length ss /\
  forall a st2, ss2 !! a = Some st2 -> exists st, ss !! a = Some st /\
     st2 = (if decide (a = a0 \/ a = a1) then st ++ [l] else st).
Proof.
  intros H0 H1 Hne. apply sets_append_Ok in H0 as (s0 & H0 & _ & ->).
  apply sets_append_Ok in H1 as (s1 & H1 & _ & ->).
  assert (Ha0 : a0 < length ss) by (by eapply lookup_lt_Some).
  pose proof (total_insert _ _ _ (s0 ++ [l]) H0) as T0. pose proof (total_insert _ _ _ (s1 ++ [l]) H1) as T1.
  rewrite list_lookup_insert_ne in H1 by done.
  assert (Ha1 : a1 < length ss) by (by eapply lookup_lt_Some).
  rewrite !insert_length. rewrite app_length in *. cbn [length] in *. split; [done|]. split; [lia|].
  split; [done|]. split; [done|].
  intros a st2 H. destruct (decide (a = a1)) as [->|Hn1].
  - rewrite list_lookup_insert in H by (rewrite insert_length; done). injection H as <-.
    exists s1. split; [done|]. rewrite decide_True by auto. done.
  - rewrite list_lookup_insert_ne in H by done. destruct (decide (a = a0)) as [->|Hn0].
    + rewrite list_lookup_insert in H by done. injection H as <-. exists s0. split; [done|].
      rewrite decide_True by auto. done.
    + rewrite list_lookup_insert_ne in H by done. exists st2. split; [done|]. rewrite decide_False by naive_solver. done.
Qed.
Lemma sets_remove2 ss a0 a1 l ss1 ss2 :
  sets_remove ss a0 l = Ok ss1 -> sets_remove ss1 a1 l = Ok ss2 -> a0 <> a1 ->
  length ss2 = length ss /\ total ss2 + 2 = total ss /\
  forall a st2, ss2 !! a = Some st2 -> exists st, ss !! a = Some st /\
     (if decide (a = a0 \/ a = a1) then l :: st2 ≡ₚ st else st2 = st).
Proof.
  intros H0 H1 Hne. apply sets_remove_Ok in H0 as (s0 & s0' & H0 & P0 & ->).
  apply sets_remove_Ok in H1 as (s1 & s1' & H1 & P1 & ->).
  assert (Ha0 : a0 < length ss) by (by eapply lookup_lt_Some).
  pose proof (total_insert _ _ _ s0' H0) as T0. pose proof (total_insert _ _ _ s1' H1) as T1.
  rewrite list_lookup_insert_ne in H1 by done.
  assert (Ha1 : a1 < length ss) by (by eapply lookup_lt_Some).
  pose proof (Permutation_length P0) as L0. pose proof (Permutation_length P1) as L1. cbn [length] in L0, L1.
  rewrite !insert_length. split; [done|]. split; [lia|].
  intros a st2 H. destruct (decide (a = a1)) as [->|Hn1].
  - rewrite list_lookup_insert in H by (rewrite insert_length; done). injection H as <-.
    exists s1. split; [done|]. rewrite decide_True by auto. done.
  - rewrite list_lookup_insert_ne in H by done. destruct (decide (a = a0)) as [->|Hn0].
    + rewrite list_lookup_insert in H by done. injection H as <-. exists s0. split; [done|].
      rewrite decide_True by auto. done.
    + rewrite list_lookup_insert_ne in H by done. exists st2. split; [done|]. rewrite decide_False by naive_solver. done.
Qed.

Lemma inv_alloc lc ac : inv (lm_alloc lc ac).
Proof.
  split; [constructor|]; cbn [lm_alloc lmLinks lmSet lmRes lmSets].
  - rewrite app_nil_r, replicate_length. done.
  - intros l k H. apply lookup_replicate in H as [-> _]. cbn. split; [done|]. by intros ?%elem_of_nil.
  - intros l k _ H. by apply elem_of_nil in H.
  - intros a st H. apply lookup_replicate in H as [-> _]. split; [constructor|].
    intros l. split; [by intros ?%elem_of_nil|]. intros [H _]. by apply elem_of_nil in H.
  - induction ac; [done|]. done.
Qed.

Lemma inv_add s a0 a1 ty s' : inv s -> a0 <> a1 -> add_link s a0 a1 ty = Ok s' -> inv s'.
Proof.
  intros [[Hsl Hac Hen Hse] Ht] Hne H. unfold add_link in H.
  apply obind_Ok in H as ([] & Hc0 & H). apply check_bd in Hc0.
  apply obind_Ok in H as ([] & Hc1 & H). apply check_bd in Hc1.
  apply obind_Ok in H as ([l res] & Hp & H). unfold stack_pop in Hp. destruct (lmRes s) as [|x r] eqn:Er; [done|].
  injection Hp as -> ->.
  apply obind_Ok in H as (ls & Hls & H). unfold set_append in Hls. destruct (decide (l ∈ lmSet s)); [done|]. injection Hls as <-.
  apply obind_Ok in H as (k & Hk & H). apply aget_Ok in Hk. cbn zeta in H. unfold lk_setAtoms in H.
  rewrite decide_False in H by naive_solver. cbn [lk0 lk1] in H.
  apply obind_Ok in H as (links & Hl & H). apply aset_Ok in Hl as [Hll ->].
  apply obind_Ok in H as (ss1 & H1 & H). apply obind_Ok in H as (ss2 & H2 & H). injection H as <-.
  destruct (sets_append2 _ _ _ _ _ _ H1 H2 Hne) as (Hlen & Htot & _ & _ & Hss).
  split; [constructor|]; cbn [lmLinks lmSet lmRes lmSets].
  - rewrite insert_length. rewrite <- Hsl. rewrite (Permutation_app_comm (lmSet s) [l]).
    cbn. symmetry. apply Permutation_middle.
  - intros l' k' Hk'. destruct (decide (l = l')) as [<-|Hd].
    + rewrite list_lookup_insert in Hk' by done. injection Hk' as <-. cbn. split; [|done]. intros _.
      apply elem_of_app. right. by apply elem_of_list_singleton.
    + rewrite list_lookup_insert_ne in Hk' by done. rewrite (Hac _ _ Hk'), elem_of_app, elem_of_list_singleton. naive_solver.
  - intros l' k' Hk' Hin. rewrite Hlen. destruct (decide (l = l')) as [<-|Hd].
    + rewrite list_lookup_insert in Hk' by done. injection Hk' as <-. cbn. exists a0, a1. done.
    + rewrite list_lookup_insert_ne in Hk' by done. eapply Hen; [done|].
      rewrite elem_of_app, elem_of_list_singleton in Hin. naive_solver.
  - intros a st2 Hst. destruct (Hss _ _ Hst) as (st & Hst0 & E). destruct (Hse _ _ Hst0) as [Hnd Hin].
    assert (Hlst : l ∉ st) by (intros Hx; apply Hin in Hx as [Hx _]; done).
    assert (Heq : forall l', l <> l' -> (l' ∈ st2 <-> l' ∈ st)).
    { intros l' Hd. rewrite E. case_decide; [|done]. rewrite elem_of_app, elem_of_list_singleton. naive_solver. }
    split.
    + rewrite E. case_decide; [|done]. apply NoDup_app. split; [done|]. split; [|apply NoDup_singleton].
      intros x Hx ->%elem_of_list_singleton. done.
    + intros l'. destruct (decide (l = l')) as [<-|Hd].
      * split.
        -- intros Hx. split; [apply elem_of_app; right; by apply elem_of_list_singleton|].
           eexists. split; [by apply list_lookup_insert|]. unfold end_of; cbn. rewrite E in Hx.
           destruct (decide (a = a0 \/ a = a1)) as [[->| ->]|]; auto. done.
        -- intros (_ & k' & Hk' & He). rewrite list_lookup_insert in Hk' by done. injection Hk' as <-.
           rewrite E. rewrite decide_True; [apply elem_of_app; right; by apply elem_of_list_singleton|].
           unfold end_of in He; cbn in He. naive_solver.
      * rewrite Heq by done. rewrite Hin. rewrite elem_of_app, elem_of_list_singleton.
        rewrite list_lookup_insert_ne by done. naive_solver.
  - rewrite app_length. cbn [length]. lia.
Qed.

Lemma inv_remove s id s' : inv s -> remove_link s id = Ok s' -> inv s' /\
  exists l, lmSet s !! id = Some l /\ l :: lmSet s' ≡ₚ lmSet s.
Proof.
  intros [[Hsl Hac Hen Hse] Ht] H. unfold remove_link in H.
  apply obind_Ok in H as (l & Hl & H). apply aget_Ok in Hl.
  apply obind_Ok in H as (k & Hk & H). apply aget_Ok in Hk.
  assert (Hlin : l ∈ lmSet s) by (by eapply elem_of_list_lookup_2).
  destruct (Hen _ _ Hk Hlin) as (a0 & a1 & E0 & E1 & Hne & Ha0 & Ha1). rewrite E0, E1 in H. cbn [deref obind] in H.
  apply obind_Ok in H as ([] & _ & H).
  apply obind_Ok in H as (h0 & _ & H). apply obind_Ok in H as ([] & _ & H).
  apply obind_Ok in H as (h1 & _ & H). apply obind_Ok in H as ([] & _ & H).
  apply obind_Ok in H as (ss1 & H1 & H). apply obind_Ok in H as (ss2 & H2 & H).
  apply obind_Ok in H as (links & Hls & H). apply aset_Ok in Hls as [Hll ->].
  apply obind_Ok in H as (ls & Hrm & H). apply set_remove_perm in Hrm.
  apply obind_Ok in H as (res & Hres & H). injection H as <-. unfold stack_push in Hres.
  destruct (decide (length (lmRes s) < length (lmLinks s))); [|done]. injection Hres as <-.
  destruct (sets_remove2 _ _ _ _ _ _ H1 H2 Hne) as (Hlen & Htot & Hss).
  assert (Hnd : NoDup (lmRes s ++ lmSet s)) by (rewrite Hsl; apply NoDup_seq).
  assert (Hnd2 : NoDup (l :: ls)) by (rewrite Hrm; by apply NoDup_app in Hnd as (_ & _ & ?)).
  apply NoDup_cons in Hnd2 as [Hnl Hnd2].
  assert (Hmem : forall l', l' ∈ lmSet s <-> l' = l \/ l' ∈ ls).
  { intros l'. rewrite <- Hrm. apply elem_of_cons. }
  split; [|exists l; done].
  split; [constructor|]; cbn [lmLinks lmSet lmRes lmSets].
  - rewrite insert_length, <- Hsl, <- Hrm. cbn. by rewrite Permutation_middle.
  - intros l' k' Hk'. destruct (decide (l = l')) as [<-|Hd].
    + rewrite list_lookup_insert in Hk' by done. injection Hk' as <-. cbn. done.
    + rewrite list_lookup_insert_ne in Hk' by done. rewrite (Hac _ _ Hk'), Hmem. naive_solver.
  - intros l' k' Hk' Hin. rewrite Hlen. destruct (decide (l = l')) as [<-|Hd]; [done|].
    rewrite list_lookup_insert_ne in Hk' by done. eapply Hen; [done|]. rewrite Hmem. auto.
  - intros a st2 Hst. destruct (Hss _ _ Hst) as (st & Hst0 & E). destruct (Hse _ _ Hst0) as [Hnds Hin].
    assert (Hno : l ∉ st2 /\ NoDup st2 /\ forall l', l <> l' -> (l' ∈ st2 <-> l' ∈ st)).
    { destruct (decide (a = a0 \/ a = a1)) as [Hd|Hd].
      - rewrite <- E in Hnds. apply NoDup_cons in Hnds as [? ?]. split; [done|]. split; [done|].
        intros l' Hl'. rewrite <- E, elem_of_cons. naive_solver.
      - subst st2. split; [|done]. intros Hx. apply Hin in Hx as (_ & k' & Hk' & He). unfold end_of in He.
        assert (k' = k) as -> by congruence. rewrite E0, E1 in He. naive_solver. }
    destruct Hno as (Hno & Hnd3 & Heq). split; [done|].
    intros l'. destruct (decide (l = l')) as [<-|Hd]; [naive_solver|].
    rewrite Heq, Hin, list_lookup_insert_ne, Hmem by done. naive_solver.
  - pose proof (Permutation_length Hrm) as HL. cbn [length] in HL. lia.
Qed.

Lemma inv_reset s l a0 a1 s' : inv s -> a0 <> a1 -> reset_atoms s l a0 a1 = Ok s' -> inv s'.
Proof.
  intros [[Hsl Hac Hen Hse] Ht] Hne H. unfold reset_atoms in H.
  apply obind_Ok in H as (k & Hk & H). apply aget_Ok in Hk.
  apply obind_Ok in H as (o0 & Ho0 & H). apply obind_Ok in H as (o1 & Ho1 & H).
  apply obind_Ok in H as ([] & Hact & H). destruct (lkActive k) eqn:Ek; [|done].
  assert (Hlin : l ∈ lmSet s) by (by apply (Hac _ _ Hk)).
  destruct (Hen _ _ Hk Hlin) as (b0 & b1 & E0 & E1 & Hne' & Hb0 & Hb1). rewrite E0, E1 in *. cbn [deref] in Ho0, Ho1.
  injection Ho0 as <-. injection Ho1 as <-.
  apply obind_Ok in H as ([] & Hc0 & H). apply check_bd in Hc0. apply obind_Ok in H as ([] & Hc1 & H). apply check_bd in Hc1.
  apply obind_Ok in H as (h0 & _ & H). apply obind_Ok in H as ([] & _ & H).
  apply obind_Ok in H as (h1 & _ & H). apply obind_Ok in H as ([] & _ & H).
  apply obind_Ok in H as (ss1 & H1 & H). apply obind_Ok in H as (ss2 & H2 & H).
  apply obind_Ok in H as (links & Hls & H). apply aset_Ok in Hls as [Hll ->].
  apply obind_Ok in H as (ss3 & H3 & H). apply obind_Ok in H as (ss4 & H4 & H). injection H as <-.
  unfold lk_setAtoms. rewrite decide_False by naive_solver. rewrite Ek.
  destruct (sets_remove2 _ _ _ _ _ _ H1 H2 Hne') as (Hlen & Htot & Hss).
  destruct (sets_append2 _ _ _ _ _ _ H3 H4 Hne) as (Hlen2 & Htot2 & _ & _ & Hss2).
  split; [constructor|]; cbn [lmLinks lmSet lmRes lmSets].
  - by rewrite insert_length.
  - intros l' k' Hk'. destruct (decide (l = l')) as [<-|Hd].
    + rewrite list_lookup_insert in Hk' by done. injection Hk' as <-. cbn. done.
    + rewrite list_lookup_insert_ne in Hk' by done. apply Hac. done.
  - intros l' k' Hk' Hin. rewrite Hlen2, Hlen. destruct (decide (l = l')) as [<-|Hd].
    + rewrite list_lookup_insert in Hk' by done. injection Hk' as <-. cbn. exists a0, a1. done.
    + rewrite list_lookup_insert_ne in Hk' by done. eapply Hen; done.
  - intros a st4 Hst4. destruct (Hss2 _ _ Hst4) as (st2 & Hst2 & E4). destruct (Hss _ _ Hst2) as (st & Hst & E2).
    destruct (Hse _ _ Hst) as [Hnds Hin].
    assert (Hno : l ∉ st2 /\ NoDup st2 /\ forall l', l <> l' -> (l' ∈ st2 <-> l' ∈ st)).
    { destruct (decide (a = b0 \/ a = b1)) as [Hd|Hd].
      - rewrite <- E2 in Hnds. apply NoDup_cons in Hnds as [? ?]. split; [done|]. split; [done|].
        intros l' Hl'. rewrite <- E2, elem_of_cons. naive_solver.
      - subst st2. split; [|done]. intros Hx. apply Hin in Hx as (_ & k' & Hk' & He). unfold end_of in He.
        assert (k' = k) as -> by congruence. rewrite E0, E1 in He. naive_solver. }
    destruct Hno as (Hno & Hnd3 & Heq). split.
    + rewrite E4. destruct (decide (a = a0 \/ a = a1)); [|done]. apply NoDup_app. split; [done|]. split; [|apply NoDup_singleton].
      intros x Hx ->%elem_of_list_singleton. done.
    + intros l'. destruct (decide (l = l')) as [<-|Hd].
      * rewrite list_lookup_insert by done. split.
        -- intros Hx. split; [done|]. eexists. split; [done|]. unfold end_of; cbn. rewrite E4 in Hx.
           destruct (decide (a = a0 \/ a = a1)) as [[->| ->]|]; auto. done.
        -- intros (_ & k' & [= <-] & He). unfold end_of in He; cbn in He.
           rewrite E4, decide_True by naive_solver. apply elem_of_app. right. by apply elem_of_list_singleton.
      * rewrite list_lookup_insert_ne by done. rewrite <- Hin, <- (Heq l') by done. rewrite E4.
        destruct (decide (a = a0 \/ a = a1)); [|done]. rewrite elem_of_app, elem_of_list_singleton. naive_solver.
  - lia.
Qed.

Lemma inv_reset_one s l a e0 s' : inv s -> distinct s (LResetOne l a e0) -> reset_atom s l a e0 = Ok s' -> inv s'.
Proof.
  intros [[Hsl Hac Hen Hse] Ht] Hdis H. unfold reset_atom in H.
  apply obind_Ok in H as (k & Hk & H). apply aget_Ok in Hk. specialize (Hdis _ Hk).
  apply obind_Ok in H as (o & Ho & H).
  apply obind_Ok in H as ([] & Hact & H). destruct (lkActive k) eqn:Ek; [|done].
  assert (Hlin : l ∈ lmSet s) by (by apply (Hac _ _ Hk)).
  destruct (Hen _ _ Hk Hlin) as (b0 & b1 & E0 & E1 & Hne' & Hb0 & Hb1).
  apply obind_Ok in H as ([] & Hc0 & H). apply check_bd in Hc0.
  apply obind_Ok in H as (h0 & _ & H). apply obind_Ok in H as ([] & _ & H).
  apply obind_Ok in H as (ss1 & H1 & H).
  apply obind_Ok in H as (links & Hls & H). apply aset_Ok in Hls as [Hll ->].
  apply obind_Ok in H as (ss2 & H2 & H). injection H as <-.
  apply sets_remove_Ok in H1 as (so & so' & H1 & P1 & ->).
  apply sets_append_Ok in H2 as (sa & H2 & _ & ->).
  pose proof (total_insert _ _ _ so' H1) as T1. pose proof (total_insert _ _ _ (sa ++ [l]) H2) as T2.
  pose proof (Permutation_length P1) as L1. rewrite app_length in T2. cbn [length] in *.
  (* the other end [b] stays, [o] is replaced by [a] *)
  set (k' := if e0 then lk_setAtoms k (Some a) (lk1 k) else lk_setAtoms k (lk0 k) (Some a)).
  assert (Hb : exists b, b <> a /\ b <> o /\ b < length (lmSets s) /\ o < length (lmSets s) /\
            (forall x, end_of k x <-> x = o \/ x = b) /\ (forall x, end_of k' x <-> x = a \/ x = b) /\ lkActive k' = true /\
            exists c0 c1, lk0 k' = Some c0 /\ lk1 k' = Some c1 /\ c0 <> c1 /\ c0 < length (lmSets s) /\ c1 < length (lmSets s)).
  { unfold k', end_of. destruct e0; rewrite E0, E1 in *; cbn [deref] in Ho; injection Ho as <-.
    - exists b1. split; [congruence|]. split; [done|]. split; [done|]. split; [done|].
      unfold lk_setAtoms. rewrite decide_False by congruence. rewrite Ek. cbn.
      split; [intros x; naive_solver|]. split; [intros x; naive_solver|]. split; [done|].
      exists a, b1. naive_solver.
    - exists b0. split; [congruence|]. split; [done|]. split; [done|]. split; [done|].
      unfold lk_setAtoms. rewrite decide_False by congruence. rewrite Ek. cbn.
      split; [intros x; naive_solver|]. split; [intros x; naive_solver|]. split; [done|].
      exists b0, a. naive_solver. }
  destruct Hb as (b & Hba & Hbo & Hbl & Hol & Hek & Hek' & Hak' & c0 & c1 & Hc01).
  split; [constructor|]; cbn [lmLinks lmSet lmRes lmSets].
  - by rewrite insert_length.
  - intros l' kk Hk'. destruct (decide (l = l')) as [<-|Hd].
    + rewrite list_lookup_insert in Hk' by done. injection Hk' as <-. naive_solver.
    + rewrite list_lookup_insert_ne in Hk' by done. apply Hac. done.
  - intros l' kk Hk' Hin. rewrite !insert_length. destruct (decide (l = l')) as [<-|Hd].
    + rewrite list_lookup_insert in Hk' by done. injection Hk' as <-. exists c0, c1. done.
    + rewrite list_lookup_insert_ne in Hk' by done. eapply Hen; done.
  - intros x st2 Hst2.
    assert (Hst : exists st1 st, lmSets s !! x = Some st /\ (if decide (x = o) then l :: st1 ≡ₚ st else st1 = st) /\
                   st2 = if decide (x = a) then st1 ++ [l] else st1).
    { destruct (decide (x = a)) as [->|Hxa].
      - rewrite list_lookup_insert in Hst2 by (rewrite insert_length; done). injection Hst2 as <-.
        destruct (decide (a = o)) as [->|Hao].
        + rewrite list_lookup_insert in H2 by done. injection H2 as <-. exists so', so. done.
        + rewrite list_lookup_insert_ne in H2 by done. exists sa, sa. done.
      - rewrite list_lookup_insert_ne in Hst2 by done. destruct (decide (x = o)) as [->|Hxo].
        + rewrite list_lookup_insert in Hst2 by done. injection Hst2 as <-. exists so', so. done.
        + rewrite list_lookup_insert_ne in Hst2 by done. exists st2, st2. done. }
    destruct Hst as (st1 & st & Hst & E1' & E2'). destruct (Hse _ _ Hst) as [Hnds Hin].
    assert (Hl1 : (l ∈ st1 <-> x = b) /\ NoDup st1 /\ forall l', l <> l' -> (l' ∈ st1 <-> l' ∈ st)).
    { destruct (decide (x = o)) as [->|Hd].
      - rewrite <- E1' in Hnds. apply NoDup_cons in Hnds as [? ?]. split; [naive_solver|]. split; [done|].
        intros l' Hl'. rewrite <- E1', elem_of_cons. naive_solver.
      - subst st1. split; [|done]. rewrite Hin. split.
        + intros (_ & kk & Hkk & He). assert (kk = k) as -> by congruence. apply Hek in He. naive_solver.
        + intros ->. split; [done|]. exists k. split; [done|]. apply Hek. auto. }
    destruct Hl1 as (Hl1 & Hnd1 & Heq). split.
    + rewrite E2'. destruct (decide (x = a)); [|done]. apply NoDup_app. split; [done|]. split; [|apply NoDup_singleton].
      intros y Hy ->%elem_of_list_singleton. apply Hl1 in Hy. congruence.
    + intros l'. destruct (decide (l = l')) as [<-|Hd].
      * rewrite list_lookup_insert by done.
        assert (l ∈ st2 <-> x = a \/ x = b) as ->.
        { rewrite E2'. destruct (decide (x = a)); [rewrite elem_of_app, elem_of_list_singleton; naive_solver|]. rewrite Hl1. naive_solver. }
        rewrite <- Hek'. naive_solver.
      * rewrite list_lookup_insert_ne by done. rewrite <- Hin, <- (Heq l') by done. rewrite E2'.
        destruct (decide (x = a)); [|done]. rewrite elem_of_app, elem_of_list_singleton. naive_solver.
  - lia.
Qed.

Lemma inv_clear_gen n s s' : inv s -> foldM (fun s id => remove_link s id) s (rev (seq 0 n)) = Ok s' ->
  inv s' /\ length (lmSet s') + n = length (lmSet s).
Proof.
  revert s. induction n as [|n IH]; intros s Hi H; [injection H as <-; split; [done|]; lia|].
  rewrite seq_S, rev_unit in H. cbn [foldM] in H. apply obind_Ok in H as (s1 & H1 & H).
  apply inv_remove in H1 as (Hi1 & l & _ & HP); [|done]. apply Permutation_length in HP. cbn in HP.
  apply IH in H as [? ?]; [|done]. split; [done|]. lia.
Qed.

Lemma inv_step s o s' : inv s -> distinct s o -> lstep s o = Ok s' -> inv s'.
Proof.
  intros Hi Hd H. destruct o; cbn [lstep] in H.
  - by eapply inv_add.
  - by eapply inv_remove.
  - by eapply inv_reset.
  - by eapply inv_reset_one.
  - by eapply inv_clear_gen.
Qed.
Lemma reach_inv lc ac s : reach lc ac s -> inv s.
Proof. induction 1; [apply inv_alloc|]. by eapply inv_step. Qed.

Lemma filter_ext_in {A} (P Q : A -> Prop) `{!forall x, Decision (P x)} `{!forall x, Decision (Q x)} (l : list A) :
  (forall x, x ∈ l -> P x <-> Q x) -> filter P l = filter Q l.
Proof.
  induction l as [|x l IH]; intros Hpq; [done|]. rewrite !filter_cons.
  rewrite IH by (intros y Hy; apply Hpq; by right).
  destruct (decide (P x)) as [Hp|Hp], (decide (Q x)) as [Hq|Hq]; try done; exfalso; specialize (Hpq x ltac:(left)); naive_solver.
Qed.
Lemma length_filter_lookup {A} (P : A -> Prop) `{!forall x, Decision (P x)} `{!Inhabited A} (l : list A) :
  length (filter P l) = length (filter (fun i => P (l !!! i)) (seq 0 (length l))).
Proof.
  induction l as [|x l IH] using rev_ind; [done|].
  rewrite app_length. cbn [length]. rewrite Nat.add_1_r, seq_S, !filter_app, !app_length, IH. f_equal.
  - f_equal. apply filter_ext_in. intros i Hi. apply elem_of_seq in Hi.
    rewrite lookup_total_app_l by lia. done.
  - cbn [plus]. rewrite !filter_cons, !filter_nil. rewrite lookup_total_app_r by lia. rewrite Nat.sub_diag. cbn.
    by case_decide.
Qed.
Global Instance link_inhabited : Inhabited link := populate lk_null.

Lemma inv_valid s : inv s -> lm_valid s = Ok ().
Proof.
  intros [[Hsl Hac Hen Hse] Ht]. unfold lm_valid.
  pose proof (Permutation_length Hsl) as HL. rewrite app_length, seq_length in HL.
  assert (Hnd : NoDup (lmRes s ++ lmSet s)) by (rewrite Hsl; apply NoDup_seq).
  apply NoDup_app in Hnd as (_ & Hdj & Hnd).
  assert (Hlt : forall l, l ∈ lmSet s -> exists k, lmLinks s !! l = Some k).
  { intros l Hl. apply lookup_lt_is_Some.
    assert (l ∈ seq 0 (length (lmLinks s))) as Hx%elem_of_seq by (rewrite <- Hsl; apply elem_of_app; by right). lia. }
  rewrite (proj2 (check_bd (length (lmLinks s) = length (lmRes s) + length (lmSet s)))) by lia. cbn [obind].
  replace (forM (lmSet s) _) with (@Ok ()  ()).
  2:{ symmetry. apply forM_Ok. intros l Hl. destruct (Hlt _ Hl) as [k Hk]. unfold aget at 1. rewrite Hk. cbn [obind].
      destruct (Hen _ _ Hk Hl) as (a0 & a1 & E0 & E1 & Hne & Ha0 & Ha1).
      assert (Hhas : forall a, a < length (lmSets s) -> end_of k a -> sets_has (lmSets s) a l = Ok true).
      { intros a Ha He. unfold sets_has, aget. destruct (lmSets s !! a) as [st|] eqn:Est.
        - cbn [obind]. rewrite bool_decide_eq_true_2; [done|]. apply (Hse _ _ Est). eauto.
        - apply lookup_ge_None in Est. lia. }
      rewrite E0, E1. rewrite (proj2 (check_bd (a0 <> a1))) by done. cbn [obind].
      rewrite (proj2 (Hac _ _ Hk)) by done. cbn [check obind].
      rewrite Hhas by (try done; by left). cbn [obind check].
      rewrite Hhas by (try done; by right). done. }
  cbn [obind]. rewrite (proj2 (check_bd _)); [cbn [obind]; apply check_bd; exact Ht|].
  rewrite (length_filter_lookup (fun k => lkActive k = true) (lmLinks s)).
  apply Permutation_length. apply NoDup_Permutation; [apply NoDup_filter, NoDup_seq|done|].
  intros l. rewrite elem_of_list_filter, elem_of_seq. split.
  - intros [Ha [_ Hb]]. destruct (lookup_lt_is_Some_2 (lmLinks s) l) as [k Hk]; [lia|].
    erewrite list_lookup_total_correct in Ha by done. by apply (Hac _ _ Hk).
  - intros Hl. destruct (Hlt _ Hl) as [k Hk]. erewrite list_lookup_total_correct by done.
    apply lookup_lt_Some in Hk as Hk'. split; [by apply (Hac _ _ Hk)|]. lia.
Qed.

(** *** No undefined behaviour *)
Lemma sets_append_UB ss a l : a < length ss -> sets_append ss a l <> UB.
Proof.
  intros Ha. destruct (lookup_lt_is_Some_2 ss a Ha) as [st Hst]. unfold sets_append, sset_append, aget, aset. rewrite Hst.
  cbn [obind]. case_decide; cbn [obind]; [|done]. rewrite decide_True by done. done.
Qed.
Lemma sets_append_len ss a l ss' : sets_append ss a l = Ok ss' -> length ss' = length ss.
Proof. intros (st & _ & _ & ->)%sets_append_Ok. by rewrite insert_length. Qed.
Lemma set_remove_UB l x : set_remove l x <> UB.
Proof. unfold set_remove. destruct (list_find _ l) as [[]|]; [destruct (last l)|]; done. Qed.
Lemma sets_remove_UB ss a l : a < length ss -> sets_remove ss a l <> UB.
Proof.
  intros Ha. destruct (lookup_lt_is_Some_2 ss a Ha) as [st Hst]. unfold sets_remove, aget, aset. rewrite Hst.
  cbn [obind]. pose proof (set_remove_UB st l). destruct (set_remove st l); cbn [obind]; [|done|done].
  rewrite decide_True by done. done.
Qed.
Lemma sets_remove_len ss a l ss' : sets_remove ss a l = Ok ss' -> length ss' = length ss.
Proof. intros (st & st' & _ & _ & ->)%sets_remove_Ok. by rewrite insert_length. Qed.
Lemma sets_has_UB ss a l : a < length ss -> sets_has ss a l <> UB.
Proof. intros Ha. destruct (lookup_lt_is_Some_2 ss a Ha) as [st Hst]. unfold sets_has, aget. by rewrite Hst. Qed.
Lemma check_UB b : check b <> UB. Proof. by destruct b. Qed.
Lemma aset_UB {A} (l : list A) i a : i < length l -> aset l i a <> UB.
Proof. intros H. unfold aset. by rewrite decide_True. Qed.

Ltac step_UB H x Hx := apply obind_UB in H as [H|(x & Hx & H)].
Lemma add_no_UB s a0 a1 ty : inv s -> add_link s a0 a1 ty <> UB.
Proof.
  intros [[Hsl Hac Hen Hse] Ht] H. unfold add_link in H.
  step_UB H x Hx; [by apply check_UB in H|]. destruct x; apply check_bd in Hx.
  step_UB H y Hy; [by apply check_UB in H|]. destruct y; apply check_bd in Hy.
  step_UB H lr Hp; [by destruct (lmRes s)|]. destruct lr as [l res].
  unfold stack_pop in Hp. destruct (lmRes s) as [|z r] eqn:Er; [done|]. injection Hp as -> ->.
  assert (Hl : l < length (lmLinks s)).
  { assert (l ∈ seq 0 (length (lmLinks s))) as Hz%elem_of_seq by (rewrite <- Hsl; left). lia. }
  step_UB H ls Hls; [unfold set_append in H; by case_decide|].
  destruct (lookup_lt_is_Some_2 _ _ Hl) as [k Hk].
  step_UB H k' Hk'; [unfold aget in H; by rewrite Hk in H|]. cbn zeta in H.
  step_UB H links Hlk; [by apply aset_UB in H|].
  step_UB H ss1 H1; [by apply sets_append_UB in H|]. apply sets_append_len in H1.
  step_UB H ss2 H2; [apply sets_append_UB in H; [done|lia]|]. done.
Qed.
Lemma remove_no_UB s id : inv s -> id < length (lmSet s) -> remove_link s id <> UB.
Proof.
  intros [[Hsl Hac Hen Hse] Ht] Hid H. unfold remove_link in H.
  destruct (lookup_lt_is_Some_2 _ _ Hid) as [l Hl]. unfold aget at 1 in H. rewrite Hl in H. cbn [obind] in H.
  apply elem_of_list_lookup_2 in Hl.
  assert (Hll : l < length (lmLinks s)).
  { assert (l ∈ seq 0 (length (lmLinks s))) as Hz%elem_of_seq by (rewrite <- Hsl; apply elem_of_app; by right). lia. }
  destruct (lookup_lt_is_Some_2 _ _ Hll) as [k Hk]. unfold aget at 1 in H. rewrite Hk in H. cbn [obind] in H.
  destruct (Hen _ _ Hk Hl) as (a0 & a1 & E0 & E1 & _ & Ha0 & Ha1). rewrite E0, E1 in H. cbn [deref obind] in H.
  step_UB H x Hx; [by apply check_UB in H|].
  step_UB H h0 Hh0; [by apply sets_has_UB in H|]. step_UB H y Hy; [by apply check_UB in H|].
  step_UB H h1 Hh1; [by apply sets_has_UB in H|]. step_UB H z Hz; [by apply check_UB in H|].
  step_UB H ss1 H1; [by apply sets_remove_UB in H|]. apply sets_remove_len in H1.
  step_UB H ss2 H2; [apply sets_remove_UB in H; [done|lia]|].
  step_UB H lk Hlk; [by apply aset_UB in H|]. step_UB H ls Hls; [by apply set_remove_UB in H|].
  step_UB H rs Hres; [unfold stack_push in H; by case_decide|]. done.
Qed.
Lemma reset_no_UB s l a0 a1 : inv s -> l ∈ lmSet s -> reset_atoms s l a0 a1 <> UB.
Proof.
  intros [[Hsl Hac Hen Hse] Ht] Hl H. unfold reset_atoms in H.
  assert (Hll : l < length (lmLinks s)).
  { assert (l ∈ seq 0 (length (lmLinks s))) as Hz%elem_of_seq by (rewrite <- Hsl; apply elem_of_app; by right). lia. }
  destruct (lookup_lt_is_Some_2 _ _ Hll) as [k Hk]. unfold aget at 1 in H. rewrite Hk in H. cbn [obind] in H.
  destruct (Hen _ _ Hk Hl) as (b0 & b1 & E0 & E1 & _ & Hb0 & Hb1). rewrite E0, E1 in H. cbn [deref obind] in H.
  step_UB H x Hx; [by apply check_UB in H|].
  step_UB H x0 Hx0; [by apply check_UB in H|]. destruct x0; apply check_bd in Hx0.
  step_UB H x1 Hx1; [by apply check_UB in H|]. destruct x1; apply check_bd in Hx1.
  step_UB H h0 Hh0; [by apply sets_has_UB in H|]. step_UB H y Hy; [by apply check_UB in H|].
  step_UB H h1 Hh1; [by apply sets_has_UB in H|]. step_UB H z Hz; [by apply check_UB in H|].
  step_UB H ss1 H1; [by apply sets_remove_UB in H|]. apply sets_remove_len in H1.
  step_UB H ss2 H2; [apply sets_remove_UB in H; [done|lia]|]. apply sets_remove_len in H2.
  step_UB H lk Hlk; [by apply aset_UB in H|].
  step_UB H ss3 H3; [apply sets_append_UB in H; [done|lia]|]. apply sets_append_len in H3.
  step_UB H ss4 H4; [apply sets_append_UB in H; [done|lia]|]. done.
Qed.
Lemma reset_one_no_UB s l a e0 : inv s -> l ∈ lmSet s -> reset_atom s l a e0 <> UB.
Proof.
  intros [[Hsl Hac Hen Hse] Ht] Hl H. unfold reset_atom in H.
  assert (Hll : l < length (lmLinks s)).
  { assert (l ∈ seq 0 (length (lmLinks s))) as Hz%elem_of_seq by (rewrite <- Hsl; apply elem_of_app; by right). lia. }
  destruct (lookup_lt_is_Some_2 _ _ Hll) as [k Hk]. unfold aget at 1 in H. rewrite Hk in H. cbn [obind] in H.
  destruct (Hen _ _ Hk Hl) as (b0 & b1 & E0 & E1 & _ & Hb0 & Hb1).
  step_UB H o Ho; [destruct e0; rewrite ?E0, ?E1 in H; done|].
  assert (Hol : o < length (lmSets s)).
  { destruct e0; rewrite ?E0, ?E1 in Ho; injection Ho as <-; done. }
  step_UB H x Hx; [by apply check_UB in H|].
  step_UB H x0 Hx0; [by apply check_UB in H|]. destruct x0; apply check_bd in Hx0.
  step_UB H h0 Hh0; [by apply sets_has_UB in H|]. step_UB H y Hy; [by apply check_UB in H|].
  step_UB H ss1 H1; [by apply sets_remove_UB in H|]. apply sets_remove_len in H1.
  step_UB H lk Hlk; [by apply aset_UB in H|].
  step_UB H ss3 H3; [apply sets_append_UB in H; [done|lia]|]. done.
Qed.
Lemma clear_no_UB s : inv s -> clear_links s <> UB.
Proof.
  unfold clear_links. enough (forall n s, inv s -> n = length (lmSet s) ->
    foldM (fun s id => remove_link s id) s (rev (seq 0 n)) <> UB) by eauto.
  clear s. intros n. induction n as [|n IH]; intros s Hi Hn; [done|].
  rewrite seq_S, rev_unit. cbn [foldM plus]. intros H. step_UB H s1 H1.
  - apply remove_no_UB in H; [done|done|lia].
  - apply inv_remove in H1 as (Hi1 & l & _ & HP); [|done]. apply Permutation_length in HP. cbn in HP.
    apply IH in H; [done|done|lia].
Qed.

(** Any history of operations that never joins an atom to itself keeps the tables consistent; isValid accepts. *)
Theorem links_consistent_partial lc ac s : reach lc ac s -> links_ok s /\ lm_valid s = Ok ().
Proof. intros H%reach_inv. split; [apply H|by apply inv_valid]. Qed.

(** In such a state an operation is undefined only if it names a link that does not exist or is not active. *)
Theorem link_ops_defined_partial lc ac s o : reach lc ac s -> lstep s o = UB ->
  match o with
  | LAdd _ _ _ | LClear => False
  | LRemove id => length (lmSet s) <= id
  | LReset l _ _ | LResetOne l _ _ => l ∉ lmSet s
  end.
Proof.
  intros Hr%reach_inv H. destruct o as [a0 a1 ty|id|l a0 a1|l a e0|]; cbn [lstep] in H.
  - by apply add_no_UB in H.
  - destruct (decide (length (lmSet s) <= id)); [done|]. by apply remove_no_UB in H; [|done|lia].
  - intros Hl. by apply reset_no_UB in H.
  - intros Hl. by apply reset_one_no_UB in H.
  - by apply clear_no_UB in H.
Qed.

(** removeLink and clear always succeed in such a state; clear leaves no links. *)
Theorem clear_removes_all lc ac s : reach lc ac s -> exists s', clear_links s = Ok s' /\ lmSet s' = [].
Proof.
  intros Hr%reach_inv.
  enough (H : forall n s, inv s -> n = length (lmSet s) ->
    exists s', foldM (fun s id => remove_link s id) s (rev (seq 0 n)) = Ok s' /\ lmSet s' = []) by (by apply H).
  clear s Hr. intros n. induction n as [|n IH]; intros s Hi Hn.
  { exists s. split; [done|]. by destruct (lmSet s). }
  rewrite seq_S, rev_unit. cbn [foldM plus].
  destruct (remove_link s n) as [s1| |] eqn:E.
  - cbn [obind]. apply inv_remove in E as (Hi1 & l & _ & HP); [|done]. apply Permutation_length in HP. cbn in HP.
    apply IH; [done|lia].
  - exfalso. destruct Hi as [[Hsl Hac Hen Hse] Ht]. unfold remove_link in E.
    destruct (lookup_lt_is_Some_2 (lmSet s) n) as [l Hl]; [lia|]. unfold aget at 1 in E. rewrite Hl in E. cbn [obind] in E.
    apply elem_of_list_lookup_2 in Hl.
    assert (Hll : l < length (lmLinks s)).
    { assert (l ∈ seq 0 (length (lmLinks s))) as Hz%elem_of_seq by (rewrite <- Hsl; apply elem_of_app; by right). lia. }
    destruct (lookup_lt_is_Some_2 _ _ Hll) as [k Hk]. unfold aget at 1 in E. rewrite Hk in E. cbn [obind] in E.
    destruct (Hen _ _ Hk Hl) as (a0 & a1 & E0 & E1 & Hne & Ha0 & Ha1).
    assert (Hhas : forall a, a < length (lmSets s) -> end_of k a ->
              exists st, lmSets s !! a = Some st /\ l ∈ st).
    { intros a Ha He. destruct (lookup_lt_is_Some_2 _ _ Ha) as [st Hst]. exists st. split; [done|].
      apply (Hse _ _ Hst). eauto. }
    destruct (Hhas a0) as (st0 & Hst0 & Hin0); [done|by left|]. destruct (Hhas a1) as (st1 & Hst1 & Hin1); [done|by right|].
    rewrite E0, E1 in E. rewrite (proj2 (Hac _ _ Hk)) in E by done. cbn [check deref obind] in E.
    unfold sets_has at 1, aget at 1 in E. rewrite Hst0 in E. cbn [obind] in E. rewrite bool_decide_eq_true_2 in E by done.
    cbn [obind check] in E. unfold sets_has at 1, aget at 1 in E. rewrite Hst1 in E. cbn [obind] in E.
    rewrite bool_decide_eq_true_2 in E by done. cbn [obind check] in E.
    destruct (set_remove_Ok _ _ Hin0) as [st0' Hr0]. destruct (set_remove_Ok _ _ Hin1) as [st1' Hr1].
    unfold sets_remove at 1, aget at 1 in E. rewrite Hst0 in E. cbn [obind] in E. rewrite Hr0 in E. cbn [obind] in E.
    unfold aset at 1 in E. rewrite decide_True in E by done. cbn [obind] in E.
    unfold sets_remove at 1, aget at 1 in E. rewrite list_lookup_insert_ne in E by done. rewrite Hst1 in E. cbn [obind] in E.
    rewrite Hr1 in E. cbn [obind] in E. unfold aset at 1 in E. rewrite insert_length, decide_True in E by done. cbn [obind] in E.
    unfold aset at 1 in E. rewrite decide_True in E by done. cbn [obind] in E.
    destruct (set_remove_Ok _ _ Hl) as [ls Hls]. rewrite Hls in E. cbn [obind] in E.
    apply Permutation_length in Hsl. rewrite app_length, seq_length in Hsl.
    unfold stack_push in E. rewrite decide_True in E by lia. done.
  - exfalso. apply remove_no_UB in E; [done|done|lia].
Qed.

(** ** What is false *)
(** A link from an atom to itself is accepted: addLink makes an active link without atoms, which is in the set of the
    atom twice; removeLink on it is undefined. *)
Theorem add_self_link_refuted : exists s,
  add_link (lm_alloc 2 3) 1 1 0 = Ok s /\ ~ links_ok s /\ lm_valid s = Throw /\ remove_link s 0 = UB.
Proof.
  eexists. split; [reflexivity|]. split; [|split; reflexivity].
  intros [_ _ Hen _]. destruct (Hen 0 (LK None None 0 true)) as (a0 & a1 & H & _); [done|by left|done].
Qed.
(** Moving one end of a link onto the other: the link is dropped from the set of the first atom and listed twice by
    the second, but keeps its old atoms; it can then not be removed. *)
Theorem reset_onto_self_refuted : exists s s',
  add_link (lm_alloc 2 3) 0 1 0 = Ok s /\ links_ok s /\ reset_atom s 0 1 true = Ok s' /\
  ~ links_ok s' /\ lm_valid s' = Throw /\ remove_link s' 0 = Throw.
Proof.
  eexists _, _. split; [reflexivity|]. split.
  - apply (reach_inv 2 3). eapply (reach_step _ _ _ (LAdd 0 1 0)); [apply reach_new|cbn; lia|reflexivity].
  - split; [reflexivity|]. split; [|split; reflexivity].
    intros [_ _ _ Hse]. destruct (Hse 1 [0; 0]) as [Hnd _]; [done|]. apply NoDup_cons in Hnd as [Hnd _]. apply Hnd. left.
Qed.
(** reSetAtoms and reSetAtom on a link that is not active dereference a null pointer before they test isActive. *)
Theorem reset_inactive_refuted lc ac s l a0 a1 e0 : reach lc ac s -> l ∈ lmRes s ->
  (forall k, lmLinks s !! l = Some k -> k = lk_null) -> reset_atoms s l a0 a1 = UB /\ reset_atom s l a0 e0 = UB.
Proof.
  intros Hr%reach_inv Hl Hk. destruct Hr as [[Hsl _ _ _] _].
  assert (Hll : l < length (lmLinks s)).
  { assert (l ∈ seq 0 (length (lmLinks s))) as Hz%elem_of_seq by (rewrite <- Hsl; apply elem_of_app; by left). lia. }
  destruct (lookup_lt_is_Some_2 _ _ Hll) as [k Hk']. specialize (Hk _ Hk') as ->.
  unfold reset_atoms, reset_atom, aget. rewrite Hk'. cbn [obind lk0 lk1 lk_null deref]. by destruct e0.
Qed.

(** ** Examples *)
Definition ex_ops : list lop := [LAdd 0 1 5; LAdd 1 2 6; LReset 0 2 0; LResetOne 1 3 true; LRemove 0; LAdd 3 0 7; LClear; LAdd 2 1 1].
Example links_ex : run lstep (lm_alloc 3 4) ex_ops
  = Ok (LM [lk_null; LK (Some 2) (Some 1) 1 true; lk_null] [1] [0; 2] [[]; [1]; [1]; []]).
Proof. reflexivity. Qed.
Example links_ex_reach : exists s, reach 3 4 s /\ lmSet s = [1; 0] /\ lmSets s = [[0]; []; [1]; [1; 0]].
Proof.
  pose proof (reach_new 3 4) as R.
  eapply (reach_step 3 4 _ (LAdd 0 1 5)) in R; [|cbn; lia|reflexivity].
  eapply (reach_step 3 4 _ (LAdd 1 2 6)) in R; [|cbn; lia|reflexivity].
  eapply (reach_step 3 4 _ (LReset 0 2 0)) in R; [|cbn; lia|reflexivity].
  eapply (reach_step 3 4 _ (LResetOne 1 3 true)) in R; [|cbn; intros k [= <-]; done|reflexivity].
  eapply (reach_step 3 4 _ (LRemove 0)) in R; [|done|reflexivity].
  eapply (reach_step 3 4 _ (LAdd 3 0 7)) in R; [|cbn; lia|reflexivity].
  eexists. split; [exact R|]. done.
Qed.

Print Assumptions links_consistent_partial.
Print Assumptions link_ops_defined_partial.
Print Assumptions clear_removes_all.
Print Assumptions add_self_link_refuted.
Print Assumptions reset_onto_self_refuted.
Print Assumptions reset_inactive_refuted.
Example reset_inactive_ex : reset_atoms (lm_alloc 2 3) 0 1 2 = UB.
Proof. reflexivity. Qed.
