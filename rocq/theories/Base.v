(** Shared vocabulary of the model: outcomes of C++ operations. *)
From stdpp Require Export base numbers list.
From Coq Require Export Lia.

(** Outcome of an operation that cannot be resumed.
    [Ok a]  - returns normally;
    [Throw] - leaves through UTIL_THROW (util/global.h, a C++ exception);
    [UB]    - has undefined behaviour: an array index out of range, a read of an
              unallocated slot, a write past the end of a buffer.  UTIL_CHECK is an
              always active check (it throws); UTIL_ASSERT and assert are compiled out
              in production builds, so a failed assertion is not [Throw]: the access
              it guards is modelled instead. *)
Inductive outcome (A : Type) : Type :=
| Ok (a : A)
| Throw
| UB.
Arguments Ok {A} a.
Arguments Throw {A}.
Arguments UB {A}.

Definition obind {A B} (x : outcome A) (f : A -> outcome B) : outcome B :=
  match x with Ok a => f a | Throw => Throw | UB => UB end.

Notation "'let?' x ':=' e 'in' k" :=
  (obind e (fun x => k))
  (at level 200, x pattern, e at level 100, k at level 200, right associativity).

(** Read element [i] of an array of known capacity; out of range is [UB]. *)
Definition aget {A} (l : list A) (i : nat) : outcome A :=
  match l !! i with Some a => Ok a | None => UB end.

(** Write element [i]; out of range is [UB]. *)
Definition aset {A} (l : list A) (i : nat) (a : A) : outcome (list A) :=
  if decide (i < length l) then Ok (<[i := a]> l) else UB.

(** Outcome of an operation on an object whose state survives an exception. *)
Inductive res (S A : Type) : Type :=
| ROk (s : S) (a : A)
| RThrow (s : S)
| RUB.
Arguments ROk {S A} s a.
Arguments RThrow {S A} s.
Arguments RUB {S A}.

(** Run a history.  [step] is applied to each operation in turn. *)
Fixpoint run {S O : Type} (step : S -> O -> outcome S) (s : S) (ops : list O)
  : outcome S :=
  match ops with
  | [] => Ok s
  | o :: ops' => let? s' := step s o in run step s' ops'
  end.

Lemma run_app {S O} (step : S -> O -> outcome S) s l1 l2 :
  run step s (l1 ++ l2) = (let? s' := run step s l1 in run step s' l2).
Proof.
  revert s. induction l1 as [|o l1 IH]; intros s; simpl; [done|].
  destruct (step s o); simpl; auto.
Qed.

Lemma run_inv {S O} (step : S -> O -> outcome S) (P : S -> Prop) :
  (forall s o s', P s -> step s o = Ok s' -> P s') ->
  forall ops s s', P s -> run step s ops = Ok s' -> P s'.
Proof.
  intros Hstep ops. induction ops as [|o ops IH]; intros s s' HP Hr; simpl in Hr.
  - by injection Hr as <-.
  - destruct (step s o) eqn:E; simpl in Hr; try discriminate. eauto.
Qed.

Lemma run_inv_ops {S O} (step : S -> O -> outcome S) (P : S -> Prop) (Q : O -> Prop) :
  (forall s o s', Q o -> P s -> step s o = Ok s' -> P s') ->
  forall ops s s', Forall Q ops -> P s -> run step s ops = Ok s' -> P s'.
Proof.
  intros Hstep ops. induction ops as [|o ops IH]; intros s s' HQ HP Hr; simpl in Hr.
  - by injection Hr as <-.
  - destruct (step s o) eqn:E; simpl in Hr; try discriminate. inversion HQ; subst. eauto.
Qed.

Lemma aget_Ok {A} (l : list A) i a : aget l i = Ok a <-> l !! i = Some a.
Proof. unfold aget. destruct (l !! i); split; congruence. Qed.

Lemma aset_Ok {A} (l l' : list A) i a :
  aset l i a = Ok l' <-> i < length l /\ l' = <[i:=a]> l.
Proof. unfold aset. case_decide; split; intuition congruence. Qed.

Lemma obind_Ok {A B} (x : outcome A) (f : A -> outcome B) b :
  obind x f = Ok b <-> exists a, x = Ok a /\ f a = Ok b.
Proof. destruct x; simpl; split; intros; naive_solver. Qed.

Lemma obind_UB {A B} (x : outcome A) (f : A -> outcome B) :
  obind x f = UB <-> x = UB \/ exists a, x = Ok a /\ f a = UB.
Proof. destruct x; simpl; split; intros; naive_solver. Qed.

Lemma obind_Throw {A B} (x : outcome A) (f : A -> outcome B) :
  obind x f = Throw <-> x = Throw \/ exists a, x = Ok a /\ f a = Throw.
Proof. destruct x; simpl; split; intros; naive_solver. Qed.

Definition is_ok {A} (x : outcome A) : Prop := exists a, x = Ok a.

Global Instance outcome_eq_dec {A} `{EqDecision A} : EqDecision (outcome A).
Proof. solve_decision. Defined.
