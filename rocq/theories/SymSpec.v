(** Groups of integer matrices and stars of wavevectors. *)
From Verif Require Import Base Vec3.
Local Open Scope Z_scope.

(** Rows and columns of 3 x 3 matrices; the product. *)
Definition row_dot (u v : vec3 Z) : Z := vx u * vx v + vy u * vy v + vz u * vz v.
Definition column (A : vec3 (vec3 Z)) (j : nat) : vec3 Z := V3 (vget (vx A) j) (vget (vy A) j) (vget (vz A) j).
Definition row_times (v : vec3 Z) (A : vec3 (vec3 Z)) : vec3 Z := V3 (row_dot v (column A 0)) (row_dot v (column A 1)) (row_dot v (column A 2)).
Definition product (A B : vec3 (vec3 Z)) : vec3 (vec3 Z) := V3 (row_times (vx A) B) (row_times (vy A) B) (row_times (vz A) B).
Definition unit_matrix : vec3 (vec3 Z) := V3 (V3 1 0 0) (V3 0 1 0) (V3 0 0 1).
(** Rotations and reflections of a cube: the rows are orthonormal. *)
Definition orthogonal (A : vec3 (vec3 Z)) : Prop :=
  row_dot (vx A) (vx A) = 1 /\ row_dot (vy A) (vy A) = 1 /\ row_dot (vz A) (vz A) = 1 /\
  row_dot (vx A) (vy A) = 0 /\ row_dot (vx A) (vz A) = 0 /\ row_dot (vy A) (vz A) = 0.
(** The group generated by some matrices. *)
Inductive generated (gens : list (vec3 (vec3 Z))) : vec3 (vec3 Z) -> Prop :=
| gen_unit : generated gens unit_matrix
| gen_in A : A ∈ gens -> generated gens A
| gen_product A B : generated gens A -> generated gens B -> generated gens (product A B)
| gen_inverse A B : generated gens A -> product A B = unit_matrix -> generated gens B.

(** Vectors equivalent by the symmetry of a cubic, tetragonal (about the first axis) or orthorhombic lattice. *)
Inductive symmetry := SCubic | STetragonal | SOrthorhombic.
Definition equivalent (s : symmetry) (v w : vec3 Z) : Prop :=
  match s with
  | SCubic => [Z.abs (vx w); Z.abs (vy w); Z.abs (vz w)] ≡ₚ [Z.abs (vx v); Z.abs (vy v); Z.abs (vz v)]
  | STetragonal => Z.abs (vx w) = Z.abs (vx v) /\ [Z.abs (vy w); Z.abs (vz w)] ≡ₚ [Z.abs (vy v); Z.abs (vz v)]
  | SOrthorhombic => Z.abs (vx w) = Z.abs (vx v) /\ Z.abs (vy w) = Z.abs (vy v) /\ Z.abs (vz w) = Z.abs (vz v)
  end.
(** The grid of integer vectors. *)
Definition in_grid (H : Z) (v : vec3 Z) : Prop := Z.abs (vx v) <= H /\ Z.abs (vy v) <= H /\ Z.abs (vz v) <= H.
