(** Lattice geometry, independent of the boundary classes. *)
From Verif Require Import Base Vec3.
From Coq Require Import Reals.
Local Open Scope R_scope.

Definition vadd (u v : vec3 R) : vec3 R := V3 (vx u + vx v) (vy u + vy v) (vz u + vz v).
Definition vsub (u v : vec3 R) : vec3 R := V3 (vx u - vx v) (vy u - vy v) (vz u - vz v).
Definition vscale (a : R) (u : vec3 R) : vec3 R := V3 (a * vx u) (a * vy u) (a * vz u).
Definition vdot (u v : vec3 R) : R := vx u * vx v + vy u * vy v + vz u * vz v.
Definition normSq (u : vec3 R) : R := vdot u u.

(** The vector n0 a0 + n1 a1 + n2 a2 of the lattice with basis [a]. *)
Definition combo (a : vec3 (vec3 R)) (n : vec3 R) : vec3 R :=
  vadd (vscale (vx n) (vx a)) (vadd (vscale (vy n) (vy a)) (vscale (vz n) (vz a))).
Definition lattice_vector (a : vec3 (vec3 R)) (n : vec3 Z) : vec3 R := combo a (vmap IZR n).

(** Triple product a0 . (a1 x a2). *)
Definition cross (u v : vec3 R) : vec3 R :=
  V3 (vy u * vz v - vz u * vy v) (vz u * vx v - vx u * vz v) (vx u * vy v - vy u * vx v).
Definition triple (a : vec3 (vec3 R)) : R := vdot (vx a) (cross (vy a) (vz a)).

Definition positive3 (l : vec3 R) : Prop := 0 < vx l /\ 0 < vy l /\ 0 < vz l.
