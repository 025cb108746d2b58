From Verif Require Import Base PlanModel PlanSpec.
From Coq Require Import Ascii NArith Bool.

(* bit number of a flag *)
Definition gbit (i j : nat) : N := N.of_nat (2 * i + j).
Definition ebit (i j : nat) : N := N.of_nat (8 + 2 * i + j).

Lemma gmask_pow i j : i < 3 -> j < 2 -> gmask i j = (2 ^ gbit i j)%N.
Proof. intros. destruct i as [|[|[|]]], j as [|[|]]; try lia; reflexivity. Qed.
Lemma emask_pow i j : i < 3 -> j < 2 -> emask i j = (2 ^ ebit i j)%N.
Proof. intros. destruct i as [|[|[|]]], j as [|[|]]; try lia; reflexivity. Qed.

Lemma land_pow_testbit p b : negb (N.eqb (N.land p (2 ^ b)) 0) = N.testbit p b.
Proof.
  destruct (N.testbit p b) eqn:E.
  - apply negb_true_iff, N.eqb_neq. intros H.
    assert (N.testbit (N.land p (2^b)) b = true) as H1.
    { rewrite N.land_spec, E, N.pow2_bits_true. done. }
    rewrite H in H1. rewrite N.bits_0 in H1. done.
  - apply negb_false_iff, N.eqb_eq. apply N.bits_inj. intros c.
    rewrite N.land_spec, N.bits_0, N.pow2_bits_eqb.
    destruct (N.eqb b c) eqn:F; [|by rewrite andb_false_r].
    apply N.eqb_eq in F as <-. by rewrite E.
Qed.

Lemma exchange_testbit p i j : i < 3 -> j < 2 -> exchange p i j = N.testbit p (ebit i j).
Proof. intros. unfold exchange. rewrite emask_pow by done. apply land_pow_testbit. Qed.
Lemma ghost_testbit p i j : i < 3 -> j < 2 -> ghost p i j = N.testbit p (gbit i j).
Proof. intros. unfold ghost. rewrite gmask_pow by done. apply land_pow_testbit. Qed.

Definition kbit (k : kind) i j := match k with Exch => ebit i j | Ghost => gbit i j end.

Lemma read_testbit p k i j : i < 3 -> j < 2 -> read_flag p k i j = N.testbit p (kbit k i j).
Proof. destruct k; simpl; intros; [by apply exchange_testbit | by apply ghost_testbit]. Qed.

Lemma kbit_eqb k i j k' i' j' : i < 3 -> j < 2 -> i' < 3 -> j' < 2 ->
  N.eqb (kbit k i j) (kbit k' i' j') =
  (match k, k' with Exch, Exch | Ghost, Ghost => Nat.eqb i i' && Nat.eqb j j' | _, _ => false end).
Proof.
  intros. destruct k, k', i as [|[|[|]]], j as [|[|]], i' as [|[|[|]]], j' as [|[|]];
    try lia; reflexivity.
Qed.

Lemma setb_bit p b c : N.testbit (N.lor p (2^b)) c = (N.eqb b c || N.testbit p c)%bool.
Proof. rewrite N.lor_spec, N.pow2_bits_eqb. apply orb_comm. Qed.
Lemma clearb_bit p b c : N.testbit (N.ldiff p (2^b)) c = (negb (N.eqb b c) && N.testbit p c)%bool.
Proof. rewrite N.ldiff_spec, N.pow2_bits_eqb. apply andb_comm. Qed.

Lemma step_spec p o k i j : op_ok o -> i < 3 -> j < 2 ->
  read_flag (plan_step p o) k i j = spec_step (read_flag p) o k i j.
Proof.
  intros Ho Hi Hj. rewrite read_testbit by done.
  destruct o as [a b|a b|a b|a b|]; simpl in Ho; try (destruct Ho).
  - unfold plan_step, setExchange. rewrite emask_pow, setb_bit by done.
    change (ebit a b) with (kbit Exch a b). rewrite kbit_eqb by done.
    unfold spec_step, write. destruct k; simpl; [|by rewrite ghost_testbit].
    rewrite exchange_testbit by done. by destruct (Nat.eqb a i), (Nat.eqb b j).
  - unfold plan_step, clearExchange. rewrite emask_pow, clearb_bit by done.
    change (ebit a b) with (kbit Exch a b). rewrite kbit_eqb by done.
    unfold spec_step, write. destruct k; simpl; [|by rewrite ghost_testbit].
    rewrite exchange_testbit by done. by destruct (Nat.eqb a i), (Nat.eqb b j).
  - unfold plan_step, setGhost. rewrite gmask_pow, setb_bit by done.
    change (gbit a b) with (kbit Ghost a b). rewrite kbit_eqb by done.
    unfold spec_step, write. destruct k; simpl; [by rewrite exchange_testbit|].
    rewrite ghost_testbit by done. by destruct (Nat.eqb a i), (Nat.eqb b j).
  - unfold plan_step, clearGhost. rewrite gmask_pow, clearb_bit by done.
    change (gbit a b) with (kbit Ghost a b). rewrite kbit_eqb by done.
    unfold spec_step, write. destruct k; simpl; [by rewrite exchange_testbit|].
    rewrite ghost_testbit by done. by destruct (Nat.eqb a i), (Nat.eqb b j).
  - exact (N.bits_0 (kbit k i j)).
Qed.

Lemma spec_step_ext f g o k i j : op_ok o -> i < 3 -> j < 2 ->
  (forall k i j, i < 3 -> j < 2 -> f k i j = g k i j) ->
  spec_step f o k i j = spec_step g o k i j.
Proof.
  intros Ho Hi Hj H. destruct o; simpl; auto;
    unfold write; destruct k; auto; repeat case_match; auto.
Qed.

Lemma history_spec ops : forall p f, Forall op_ok ops ->
  (forall k i j, i < 3 -> j < 2 -> read_flag p k i j = f k i j) ->
  forall k i j, i < 3 -> j < 2 ->
  read_flag (fold_left plan_step ops p) k i j = fold_left spec_step ops f k i j.
Proof.
  induction ops as [|o ops IH]; intros p f Hops H k i j Hi Hj; simpl; [by apply H|].
  inversion Hops; subst. apply IH; try done.
  intros k' i' j' ??. rewrite step_spec by done. apply spec_step_ext; auto.
Qed.

(** text form *)

Definition upd1 (p : plan) (k : kind) i j (b : bool) : plan :=
  match k, b with
  | Exch, true => setExchange p i j | Exch, false => clearExchange p i j
  | Ghost, true => setGhost p i j | Ghost, false => clearGhost p i j
  end.

Lemma upd1_spec p k i j b k' i' j' : i < 3 -> j < 2 -> i' < 3 -> j' < 2 ->
  read_flag (upd1 p k i j b) k' i' j' = write (read_flag p) k i j b k' i' j'.
Proof.
  intros. destruct k, b; simpl upd1.
  - apply (step_spec p (SetExchange i j)); simpl; auto.
  - apply (step_spec p (ClearExchange i j)); simpl; auto.
  - apply (step_spec p (SetGhost i j)); simpl; auto.
  - apply (step_spec p (ClearGhost i j)); simpl; auto.
Qed.

Lemma read_exchange_at_bit w p k i j b :
  w !! k = Some (bit_char b) -> read_exchange_at w p k i j = Ok (upd1 p Exch i j b).
Proof. intros H. unfold read_exchange_at, str_at. rewrite H. by destruct b. Qed.
Lemma read_ghost_at_bit w p k i j b :
  w !! k = Some (bit_char b) -> read_ghost_at w p k i j = Ok (upd1 p Ghost i j b).
Proof. intros H. unfold read_ghost_at, str_at. rewrite H. by destruct b. Qed.

Lemma bit_char_not_blank b : Ascii.eqb (bit_char b) " " = false.
Proof. by destruct b. Qed.

Definition sixbits (b0 b1 b2 b3 b4 b5 : bool) : list ascii :=
  [bit_char b0; bit_char b1; bit_char b2; bit_char b3; bit_char b4; bit_char b5].

Lemma take_word_six b0 b1 b2 b3 b4 b5 rest :
  (rest = [] \/ exists r, rest = " "%char :: r) ->
  read_word (sixbits b0 b1 b2 b3 b4 b5 ++ rest) = (sixbits b0 b1 b2 b3 b4 b5, rest).
Proof.
  intros Hr. unfold read_word, sixbits; simpl.
  repeat (rewrite ?bit_char_not_blank; simpl).
  destruct Hr as [-> | [r ->]]; simpl; reflexivity.
Qed.

Lemma plan_out_eq p :
  plan_out p = sixbits (exchange p 0 0) (exchange p 0 1) (exchange p 1 0)
                       (exchange p 1 1) (exchange p 2 0) (exchange p 2 1)
               ++ [" "%char; " "%char]
               ++ sixbits (ghost p 0 0) (ghost p 0 1) (ghost p 1 0)
                       (ghost p 1 1) (ghost p 2 0) (ghost p 2 1) ++ [].
Proof. reflexivity. Qed.

Lemma read_exchange_six b0 b1 b2 b3 b4 b5 p :
  read_exchange_word (sixbits b0 b1 b2 b3 b4 b5) p =
  Ok (upd1 (upd1 (upd1 (upd1 (upd1 (upd1 p Exch 0 0 b0) Exch 0 1 b1) Exch 1 0 b2)
         Exch 1 1 b3) Exch 2 0 b4) Exch 2 1 b5).
Proof.
  unfold read_exchange_word.
  repeat (erewrite read_exchange_at_bit by reflexivity; cbn [obind]). reflexivity.
Qed.
Lemma read_ghost_six b0 b1 b2 b3 b4 b5 p :
  read_ghost_word (sixbits b0 b1 b2 b3 b4 b5) p =
  Ok (upd1 (upd1 (upd1 (upd1 (upd1 (upd1 p Ghost 0 0 b0) Ghost 0 1 b0) Ghost 1 0 b1)
         Ghost 1 1 b1) Ghost 2 0 b2) Ghost 2 1 b2).
Proof.
  unfold read_ghost_word.
  repeat (erewrite read_ghost_at_bit by reflexivity; cbn [obind]). reflexivity.
Qed.

Lemma plan_in_out p q :
  exists r, plan_in (plan_out p) q = Ok (r, []) /\
   (forall i j, i < 3 -> j < 2 -> exchange r i j = exchange p i j) /\
   (forall i j, i < 3 -> j < 2 -> ghost r i j = ghost p (i / 2) (i mod 2)).
Proof.
  eexists. split.
  { rewrite plan_out_eq. unfold plan_in.
    rewrite take_word_six by (right; eexists; reflexivity).
    rewrite read_exchange_six; cbn [obind].
    match goal with |- context [read_word ?l] =>
      replace (read_word l) with
       (sixbits (ghost p 0 0) (ghost p 0 1) (ghost p 1 0)
                       (ghost p 1 1) (ghost p 2 0) (ghost p 2 1), @nil ascii) end.
    2:{ symmetry. etransitivity;
        [|exact (take_word_six (ghost p 0 0) (ghost p 0 1) (ghost p 1 0)
                       (ghost p 1 1) (ghost p 2 0) (ghost p 2 1) [] (or_introl eq_refl))].
        reflexivity. }
    rewrite read_ghost_six. cbn [obind]. reflexivity. }
  split.
  - intros i j Hi Hj.
    match goal with |- exchange ?r i j = _ =>
      change (read_flag r Exch i j = read_flag p Exch i j) end.
    destruct i as [|[|[|]]], j as [|[|]]; try lia;
      repeat (rewrite upd1_spec by lia; unfold write at 1; simpl Nat.eqb; simpl andb; cbv iota);
      reflexivity.
  - intros i j Hi Hj.
    match goal with |- ghost ?r i j = _ =>
      change (read_flag r Ghost i j = read_flag p Ghost (i/2) (i mod 2)) end.
    destruct i as [|[|[|]]], j as [|[|]]; try lia;
      repeat (rewrite upd1_spec by lia; unfold write at 1; simpl Nat.eqb; simpl andb; cbv iota);
      reflexivity.
Qed.
