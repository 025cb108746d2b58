(** What a user expects of a Plan: twelve independent boolean registers. *)
From Verif Require Import Base PlanModel.

Inductive kind := Exch | Ghost.
Definition flagset := kind -> nat -> nat -> bool.

Definition read_flag (p : plan) : flagset :=
  fun k i j => match k with Exch => exchange p i j | Ghost => ghost p i j end.

Definition write (f : flagset) (k : kind) (i j : nat) (b : bool) : flagset :=
  fun k' i' j' =>
    match k, k' with
    | Exch, Exch | Ghost, Ghost =>
        if (Nat.eqb i i' && Nat.eqb j j')%bool then b else f k' i' j'
    | _, _ => f k' i' j'
    end.

Definition spec_step (f : flagset) (o : plan_op) : flagset :=
  match o with
  | SetExchange i j => write f Exch i j true
  | ClearExchange i j => write f Exch i j false
  | SetGhost i j => write f Ghost i j true
  | ClearGhost i j => write f Ghost i j false
  | ClearFlags => fun _ _ _ => false
  end.

(** Operations whose indices are in range (i in 0..2, j in 0..1). *)
Definition op_ok (o : plan_op) : Prop :=
  match o with
  | SetExchange i j | ClearExchange i j | SetGhost i j | ClearGhost i j => i < 3 /\ j < 2
  | ClearFlags => True
  end.

(** Two plans with the same twelve flags. *)
Definition same_flags (p q : plan) : Prop :=
  forall k i j, i < 3 -> j < 2 -> read_flag p k i j = read_flag q k i j.
