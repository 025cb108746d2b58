(** Which pairs a selector asks for, and sums over them. *)
From Verif Require Import Base Vec3 EnergyModel EnergySpec PairSelModel.
From Coq Require Import Reals.
Local Open Scope R_scope.

(** The ordered pair i, j is of the kind asked for: different atoms of the same molecule, of different molecules, or any; of the given types, of
    which a negative one admits all. *)
Definition wanted (molOf : nat -> nat) (ty : nat -> Z) (s : selector) (i j : nat) : Prop :=
  i <> j /\ (slType s = INTRA -> molOf i = molOf j) /\ (slType s = INTER -> molOf i <> molOf j) /\
  ((slT1 s < 0)%Z \/ ty i = slT1 s) /\ ((slT2 s < 0)%Z \/ ty j = slT2 s).
(** Every unmasked unordered pair that is wanted in one of its orders, once. *)
Definition wanted_energy (dist2 : vec3 R -> vec3 R -> R) (masked : nat -> nat -> bool) (u : R -> Z -> Z -> R) (atoms : list nat) (want : nat -> nat -> Prop)
    `{forall i j, Decision (want i j)} (pos : nat -> vec3 R) (ty : nat -> Z) : R :=
  sum_over atoms (fun i => sum_over atoms (fun j =>
    if decide ((i < j)%nat /\ (want i j \/ want j i)) then if masked i j then 0 else u (dist2 (pos i) (pos j)) (ty i) (ty j) else 0)).
(** The number of atoms of a kind in a snapshot; a negative type stands for all. *)
Definition kind_number (x : snapshot) (t : Z) : R := sum_over (snAtoms x) (fun i => if decide ((t < 0)%Z \/ snTy x i = t) then 1 else 0).
Definition total_number (x : snapshot) : R := INR (length (snAtoms x)).

Global Instance wanted_dec molOf ty s i j : Decision (wanted molOf ty s i j).
Proof.
  unfold wanted. destruct (slType s) eqn:E.
  - destruct (decide (i <> j /\ molOf i = molOf j /\ ((slT1 s < 0)%Z \/ ty i = slT1 s) /\ ((slT2 s < 0)%Z \/ ty j = slT2 s))); [left|right]; naive_solver.
  - destruct (decide (i <> j /\ molOf i <> molOf j /\ ((slT1 s < 0)%Z \/ ty i = slT1 s) /\ ((slT2 s < 0)%Z \/ ty j = slT2 s))); [left|right]; naive_solver.
  - destruct (decide (i <> j /\ ((slT1 s < 0)%Z \/ ty i = slT1 s) /\ ((slT2 s < 0)%Z \/ ty j = slT2 s))); [left|right]; naive_solver.
Defined.
