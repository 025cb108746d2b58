(** What the centre and the second moments of a cluster are. *)
From Verif Require Import Base Vec3 BoxSpec ClusterModel ClusterSpec EnergySpec MdSpec.
From Coq Require Import Reals.
Local Open Scope R_scope.

(** The atoms of a type in the molecules of a cluster. *)
Definition members (atomsOf : nat -> list nat) (ofType : nat -> bool) (L : list nat) : list nat := List.filter ofType (flat_map atomsOf L).
(** The mean of a vector over some atoms. *)
Definition mean (A : list nat) (u : nat -> vec3 R) : vec3 R := vscale (/ INR (length A)) (vsum_over A u).
(** The second moments about a point: component i j is the mean of the product of components i and j of the separations. *)
Definition moment (A : list nat) (u : nat -> vec3 R) (o : vec3 R) (i j : nat) : R :=
  / INR (length A) * sum_over A (fun a => vget (vsub (u a) o) i * vget (vsub (u a) o) j).
(** Points less than half an edge from o along each axis. *)
Definition half_about (lens o r : vec3 R) : Prop := forall i, (i < 3)%nat -> Rabs (vget (vsub r o) i) < vget lens i / 2.
