(** Symmetry groups and the grid of StructureFactorGrid (C104). *)
From Verif Require Import Base Vec3 SymModel SymSpec SymProofs SymGrid.
Local Open Scope Z_scope.

(** C104.  For orthogonal elements added in any number and order makeCompleteGroup ends, with the group they generate: each element once, at most 48,
    and isValid() returns true. *)
Theorem complete_group_correct :
  forall gens fuel, Forall orthogonal gens -> (49 <= fuel)%nat ->
  exists l, makeCompleteGroup fuel (fold_left (fun l A => fst (gadd l A)) gens group_new) = Some l /\
    NoDup l /\ (forall A, A ∈ l <-> generated gens A) /\ (length l <= 48)%nat /\ gvalid l = Ok true.
Proof.
  intros gens fuel HG Hf. set (l0 := fold_left _ gens group_new). destruct (adds_facts gens group_new) as (A1 & A2 & A3 & A4). fold l0 in A1, A2, A3, A4.
  destruct (inverses_facts l0 l0) as (B1 & B2 & B3 & B4). change (fold_left _ l0 l0) with (add_inverses l0) in *.
  assert (R0 : forall A, A ∈ l0 -> A ∈ rots).
  { intros A HA. apply rots_iff. destruct (A4 A HA) as [->%elem_of_list_singleton|HA']; [vm_compute; tauto|]. rewrite Forall_forall in HG. by apply HG. }
  assert (R1 : forall A, A ∈ add_inverses l0 -> A ∈ rots).
  { intros A HA. destruct (B4 A HA) as [?|(B & HB & ->)]; [auto|]. apply rots_inverse. auto. }
  assert (N1 : NoDup (add_inverses l0)) by (apply B3, A3, NoDup_singleton).
  assert (HE : (48 < fuel + length (add_inverses l0))%nat) by lia.
  destruct (gloop_ends fuel _ N1 R1 HE) as (l & Hl). exists l. split; [done|]. destruct (gloop_closed _ _ _ Hl) as (C1 & C2 & C3).
  assert (R2 : forall A, A ∈ l -> A ∈ rots /\ generated gens A).
  { apply (gloop_only (fun A => A ∈ rots /\ generated gens A)) with (fuel := fuel) (l := add_inverses l0); [| |done|].
    - intros A B [] []. split; [by apply rots_product|by apply gen_product].
    - intros A [H1 H2]. destruct (rots_inverse A H1) as (H3 & H4 & _). split; [done|]. by apply (gen_inverse _ A).
    - assert (G0 : forall A, A ∈ l0 -> generated gens A).
      { intros A HA. destruct (A4 A HA) as [->%elem_of_list_singleton|HA']; [apply gen_unit|by apply gen_in]. }
      intros A HA. split; [auto|]. destruct (B4 A HA) as [?|(B & HB & ->)]; [auto|]. apply (gen_inverse _ B); [auto|]. by apply rots_inverse, R0. }
  assert (U : unit_matrix ∈ l) by (apply C1, B1, A1; left). assert (HN : NoDup l) by auto.
  assert (HI : forall A, A ∈ l -> sinv A ∈ l) by (intros A HA; destruct (C2 A unit_matrix HA U) as [_ H]; by rewrite product_1_r in H).
  split; [done|]. split; [|split].
  - intros A. split; [intros HA; by apply R2|]. induction 1 as [|A HA|A B _ IA _ IB|A B _ IA E]; [done|by apply C1, B1, A2|by apply C2|].
    rewrite (inverse_unique A B); [by apply HI|by apply R2|done].
  - apply rots_bound; [done|]. intros A HA. by apply R2.
  - unfold gvalid. assert (gfind sid l = true) as -> by (by apply gfind_iff). cbn [negb].
    assert (forallb _ (seq 0 (length l)) = true) as ->; [|done].
    apply forallb_forall. intros i _. destruct (l !! i) as [A|] eqn:Ei; [|done]. apply andb_true_iff. split; [apply gfind_iff, HI; by eapply elem_of_list_lookup_2|].
    apply forallb_forall. intros j _. destruct (l !! j) as [B|] eqn:Ej; [|done]. apply andb_true_iff. split.
    + apply negb_true_iff, andb_false_iff. destruct (Nat.eqb_spec i j) as [->|Hij]; [by left|right]. destruct (sym_eqb A B) eqn:E; [|done]. apply sym_eqb_iff in E as ->.
      exfalso. apply Hij. by eapply NoDup_lookup.
    + apply gfind_iff. rewrite smul_eq. apply C2; by eapply elem_of_list_lookup_2.
Qed.
(** isValid() accepts nothing else: if it returns true the elements are distinct, contain the identity, and are closed under products and the
    transposes that inverse() returns. *)
Theorem valid_group_correct :
  forall l, gvalid l = Ok true -> NoDup l /\ unit_matrix ∈ l /\ (forall A B, A ∈ l -> B ∈ l -> product A B ∈ l) /\ (forall A, A ∈ l -> sinv A ∈ l).
Proof.
  intros l. unfold gvalid. destruct (gfind sid l) eqn:E0; [|done]. cbn [negb]. destruct (forallb _ (seq 0 (length l))) eqn:E; [|done]. intros _.
  rewrite forallb_forall in E. apply gfind_iff in E0.
  assert (H : forall i A, l !! i = Some A -> gfind (sinv A) l = true /\ forall j B, l !! j = Some B -> negb (negb (Nat.eqb i j) && sym_eqb A B) = true /\ gfind (smul A B) l = true).
  { intros i A Hi. specialize (E i ltac:(apply in_seq; apply lookup_lt_Some in Hi; lia)). rewrite Hi in E. apply andb_true_iff in E as [H1 H2]. split; [done|].
    intros j B Hj. rewrite forallb_forall in H2. specialize (H2 j ltac:(apply in_seq; apply lookup_lt_Some in Hj; lia)). rewrite Hj in H2. by apply andb_true_iff in H2. }
  split; [|split; [done|split]].
  - apply NoDup_alt. intros i j A Hi Hj. destruct (H i A Hi) as [_ H2]. destruct (H2 j A Hj) as [H3 _]. apply negb_true_iff, andb_false_iff in H3 as [H3|H3].
    + apply negb_false_iff, Nat.eqb_eq in H3. done.
    + assert (sym_eqb A A = true) by (by apply sym_eqb_iff). congruence.
  - intros A B [i Hi]%elem_of_list_lookup [j Hj]%elem_of_list_lookup. destruct (H i A Hi) as [_ H2]. destruct (H2 j B Hj) as [_ H3]. by rewrite smul_eq, gfind_iff in H3.
  - intros A [i Hi]%elem_of_list_lookup. destruct (H i A Hi) as [H1 _]. by apply gfind_iff.
Qed.

(** The threefold rotation in the basis of a hexagonal lattice has order 3, but inverse() is not its inverse and makeCompleteGroup never ends: the
    condition of orthogonality cannot be left out. *)
Definition hex : mat := V3 (V3 0 (-1) 0) (V3 1 (-1) 0) (V3 0 0 1).
Fixpoint hex_power (n : nat) : mat := match n with O => unit_matrix | S n => product (hex_power n) (product hex (sinv hex)) end.
Lemma hex_grows n : 0 <= ent (hex_power n) 0 0 /\ 0 <= ent (hex_power n) 0 1 /\ ent (hex_power n) 0 0 + ent (hex_power n) 0 1 >= 1 + Z.of_nat n /\
  forall m, (m < n)%nat -> ent (hex_power m) 0 0 + ent (hex_power m) 0 1 < ent (hex_power n) 0 0 + ent (hex_power n) 0 1.
Proof.
  assert (ST : forall n, ent (hex_power (S n)) 0 0 = ent (hex_power n) 0 0 + ent (hex_power n) 0 1 /\ ent (hex_power (S n)) 0 1 = ent (hex_power n) 0 0 + 2 * ent (hex_power n) 0 1).
  { intros k. cbn [hex_power]. generalize (hex_power k). intros [[a b c] [d e f] [g h i]]. unfold ent, product, row_times, row_dot, column, hex, sinv, mat_of, ent. cbn [vx vy vz vget]. split; ring. }
  assert (P1 : forall n, 1 <= ent (hex_power n) 0 0 /\ 0 <= ent (hex_power n) 0 1 /\ (n <> 0%nat -> 1 <= ent (hex_power n) 0 1)).
  { induction n0 as [|k IH]; [cbn; lia|]. destruct (ST k) as [-> ->]. lia. }
  induction n as [|n (I1 & I2 & I3 & I4)]; [cbn; split; [lia|]; split; [lia|]; split; lia|].
  destruct (ST n) as [E1 E2], (P1 n) as (Q1 & Q2 & _). rewrite E1, E2. split; [lia|]. split; [lia|]. split; [lia|]. intros m Hm.
  destruct (decide (m = n)) as [->|]; [lia|]. specialize (I4 m ltac:(lia)). lia.
Qed.
Lemma list_lookup_seq a n i x : seq a n !! i = Some x -> x = (a + i)%nat /\ (i < n)%nat.
Proof.
  revert a i. induction n as [|n IH]; intros a [|i]; cbn; [done|done|intros [= <-]; lia|]. intros H%IH. lia.
Qed.
Theorem complete_group_diverges :
  product hex (product hex hex) = unit_matrix /\ product hex (sinv hex) <> unit_matrix /\
  forall fuel, makeCompleteGroup fuel (fst (gadd group_new hex)) = None.
Proof.
  split; [done|]. split; [done|]. intros fuel. destruct (makeCompleteGroup fuel _) as [l|] eqn:E; [exfalso|done].
  unfold makeCompleteGroup in E. destruct (gloop_closed _ _ _ E) as (C1 & C2 & _).
  assert (U : unit_matrix ∈ l) by (apply C1; vm_compute; left).
  assert (H0 : hex ∈ l) by (apply C1, gfind_iff; vm_compute; done). assert (H1 : sinv hex ∈ l) by (apply C1, gfind_iff; vm_compute; done).
  assert (HP : forall n, hex_power n ∈ l).
  { induction n as [|n IH]; [done|]. cbn [hex_power]. apply C2; [done|]. by apply C2. }
  assert (HL : (length (map hex_power (seq 0 (S (length l)))) <= length l)%nat).
  { apply submseteq_length, NoDup_submseteq.
    - apply NoDup_alt. intros i j A Hi Hj. rewrite list_lookup_fmap in Hi, Hj. apply fmap_Some in Hi as (x & Hx & ->). apply fmap_Some in Hj as (y & Hy & EQ).
      apply list_lookup_seq in Hx as [-> Hi]. apply list_lookup_seq in Hy as [-> Hj]. destruct (Nat.lt_trichotomy (0 + i) (0 + j)) as [H|[H|H]]; [|lia|].
      + destruct (hex_grows (0 + j)) as (_ & _ & _ & G). specialize (G _ H). rewrite EQ in G. lia.
      + destruct (hex_grows (0 + i)) as (_ & _ & _ & G). specialize (G _ H). rewrite EQ in G. lia.
    - intros A (n & -> & _)%elem_of_list_fmap. apply HP. }
  rewrite map_length, seq_length in HL. lia.
Qed.

(** C104.  makeStar throws if the star is smaller than the group, and else returns each image of the root once. *)
Theorem star_correct :
  forall cap g root,
  ((cap < length g)%nat /\ makeStar cap g root = Throw) \/
  ((length g <= cap)%nat /\ exists star, makeStar cap g root = Ok star /\ NoDup star /\ (length star <= cap)%nat /\ forall v, v ∈ star <-> exists A, A ∈ g /\ v = row_times root A).
Proof.
  intros cap g root. unfold makeStar. destruct (Nat.ltb_spec cap (length g)) as [H|H]; [by left|right]. split; [done|].
  destruct (star_fold root g []) as [H1 H2]. eexists. split; [done|]. split; [apply H1, NoDup_nil_2|]. split.
  - etransitivity; [|exact H]. erewrite <- (map_length (row_times root) g). apply submseteq_length, NoDup_submseteq; [apply H1, NoDup_nil_2|].
    intros v [Hv|(A & HA & ->)]%H2; [by apply elem_of_nil in Hv|]. apply elem_of_list_In, in_map. by apply elem_of_list_In.
  - intros v. rewrite H2. split; [intros [Hv|?]; [by apply elem_of_nil in Hv|done]|by right].
Qed.
