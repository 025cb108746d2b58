(** Properties C16 and C17: Plan flags and their text form. *)
From Verif Require Import Base PlanModel PlanSpec PlanProofs.
From Coq Require Import NArith Ascii.

(** C16.  After any history of calls each flag reads as the last value written to
    it: the packed word behaves as twelve independent registers. *)
Theorem plan_flags_independent :
  forall (ops : list plan_op) (p : plan), Forall op_ok ops ->
  forall k i j, i < 3 -> j < 2 ->
  read_flag (fold_left plan_step ops p) k i j
  = fold_left spec_step ops (read_flag p) k i j.
Proof. intros ops p H. exact (history_spec ops p _ H (fun _ _ _ _ _ => eq_refl)). Qed.

(** All flags of a new plan read false. *)
Theorem plan_new_clear : forall k i j, i < 3 -> j < 2 -> read_flag new_plan k i j = false.
Proof.
  intros k i j Hi Hj. rewrite read_testbit by assumption. apply N.bits_0.
Qed.

Example plan_history_example :
  let ops := [SetExchange 1 0; SetGhost 2 1; SetExchange 0 1; ClearExchange 1 0] in
  Forall op_ok ops /\
  read_flag (fold_left plan_step ops new_plan) Exch 0 1 = true /\
  read_flag (fold_left plan_step ops new_plan) Exch 1 0 = false /\
  read_flag (fold_left plan_step ops new_plan) Ghost 2 1 = true.
Proof. simpl. repeat (first [constructor | lia]). Qed.

(** C17 as a user would state it is false: some plan is changed by writing it and
    reading it back, whatever plan it is read into. *)
Theorem plan_text_round_trip_refuted :
  exists p : plan, forall q r rest,
    plan_in (plan_out p) q = Ok (r, rest) -> ~ same_flags r p.
Proof.
  exists 2%N. intros q r rest Hin Hsame.
  destruct (plan_in_out 2%N q) as (r' & Hr' & _ & Hg).
  rewrite Hin in Hr'. injection Hr' as -> _.
  specialize (Hg 0%nat 1%nat ltac:(lia) ltac:(lia)).
  specialize (Hsame Ghost 0%nat 1%nat ltac:(lia) ltac:(lia)).
  simpl in Hsame. rewrite Hg in Hsame. vm_compute in Hsame. discriminate.
Qed.

(** C17, what is true: reading never fails on written text and consumes it all;
    the exchange flags survive; ghost flag (i,j) of the result is the flag that
    was written as character number i of the ghost word. *)
Theorem plan_text_round_trip_partial :
  forall p q : plan, exists r,
    plan_in (plan_out p) q = Ok (r, []) /\
    (forall i j, i < 3 -> j < 2 -> exchange r i j = exchange p i j) /\
    (forall i j, i < 3 -> j < 2 -> ghost r i j = ghost p (i / 2) (i mod 2)).
Proof. exact plan_in_out. Qed.

(** Hence the round trip is exact precisely for plans whose ghost flags satisfy
    these equations (for instance all clear, or all set). *)
Theorem plan_text_round_trip_iff_partial :
  forall p q r rest, plan_in (plan_out p) q = Ok (r, rest) ->
  (same_flags r p <->
   forall i j, i < 3 -> j < 2 -> ghost p i j = ghost p (i / 2) (i mod 2)).
Proof.
  intros p q r rest Hin. destruct (plan_in_out p q) as (r' & Hr' & He & Hg).
  rewrite Hin in Hr'. injection Hr' as -> _. split.
  - intros Hs i j Hi Hj. rewrite <- Hg with (j := j) by assumption.
    symmetry. exact (Hs Ghost i j Hi Hj).
  - intros H [] i j Hi Hj; simpl; [by apply He|]. rewrite Hg by assumption. symmetry. by apply H.
Qed.

Example plan_round_trip_case :
  exists r, plan_in (plan_out (setExchange 63%N 1 1)) 0%N = Ok (r, []) /\ r = setExchange 63%N 1 1.
Proof. eexists. split; vm_compute; reflexivity. Qed.

Print Assumptions plan_flags_independent.
Print Assumptions plan_new_clear.
Print Assumptions plan_text_round_trip_refuted.
Print Assumptions plan_text_round_trip_partial.
Print Assumptions plan_text_round_trip_iff_partial.
