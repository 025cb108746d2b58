(** What generated configurations should be like. *)
From stdpp Require Import gmap.
From Verif Require Import Base Vec3 BoxSpec CellListSpec GnrModel.
From Coq Require Import Reals.
Local Open Scope R_scope.

(** Diameter of atoms of a type. *)
Definition diam (ds : list R) (t : Z) : R := nth (Z.to_nat t) ds 0.
(** No two of the atoms are closer than the mean of their diameters. *)
Definition apart (dist2 : vec3 R -> vec3 R -> R) (ds : list R) (S : list nat) (pos : nat -> vec3 R) (ty : nat -> Z) : Prop :=
  forall a b, a ∈ S -> b ∈ S -> a <> b -> Rsqr ((diam ds (ty a) + diam ds (ty b)) / 2) <= dist2 (pos a) (pos b).
(** Consecutive atoms of the chain are at the distance of a vector in [V], up to the wrapping of positions. *)
Definition bonded_by (wrap : vec3 R -> vec3 R) (V : vec3 R -> Prop) (pos : nat -> vec3 R) (mol : list nat) : Prop :=
  forall i a b, mol !! i = Some a -> mol !! S i = Some b -> exists v, V v /\ pos b = wrap (vadd (pos a) v).
(** The first atom is at a point in [P], up to wrapping. *)
Definition starts_at (wrap : vec3 R -> vec3 R) (P : vec3 R -> Prop) (pos : nat -> vec3 R) (mol : list nat) : Prop :=
  forall a, mol !! 0%nat = Some a -> exists q, P q /\ pos a = wrap q.

(** The bond vectors that the draws [next] of one attempt can give, and those of all attempts for all molecules. *)
Definition steps_of (next : nat -> list bond_draw) (v : vec3 R) : Prop := exists i u L, (u, L) ∈ next i /\ v = vscale (L 0%Z) u.
Definition drawn (tries : nat -> list mol_draws) (v : vec3 R) : Prop := exists i x, x ∈ tries i /\ steps_of x.2 v.
(** All points that are drawn, or reached by a bond vector from a point of the cell, are near the cell. *)
Definition draws_near (toGen : vec3 R -> vec3 R) (near : vec3 R -> Prop) (x : mol_draws) : Prop :=
  (forall q, q ∈ x.1 -> near q) /\ (forall v r, steps_of x.2 v -> primary (toGen r) -> near (vadd r v)).
