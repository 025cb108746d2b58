(** Replica exchange as physics has it. *)
From Verif Require Import Base Vec3 EnergySpec.
From Coq Require Import Reals.
Local Open Scope R_scope.

(** A pair interaction whose energy for types 0 and 1 is epsilon(0,1) times [v]; the others do not depend on epsilon(0,1). *)
Definition unlike (t1 t2 : Z) : Prop := (t1 = 0 /\ t2 = 1)%Z \/ (t1 = 1 /\ t2 = 0)%Z.
Definition linear_in_eps (u : R -> R -> Z -> Z -> R) : Prop :=
  exists v w : R -> Z -> Z -> R, forall eps r t1 t2,
    (unlike t1 t2 -> u eps r t1 t2 = eps * v r t1 t2) /\ (~ unlike t1 t2 -> u eps r t1 t2 = w r t1 t2).
(** Each of n systems, one of each parameter set: system c has the parameters of rank [q c].  Its Boltzmann exponent is the sum over the parameters. *)
Definition exponent (nP : nat) (D P : nat -> nat -> R) (n : nat) (q : nat -> nat) : R :=
  sum_over (seq 0 n) (fun c => sum_over (seq 0 nP) (fun k => P (q c) k * D c k)).
