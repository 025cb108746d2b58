(** Gradients of functions of several vectors, by directional derivatives. *)
From Verif Require Import Base Vec3 BoxSpec.
From Coq Require Import Reals.
From Coquelicot Require Import Coquelicot.
Local Open Scope R_scope.

Definition move (b e : vec3 R) (t : R) : vec3 R := vadd b (vscale t e).

(** [g] is the gradient of [f] at [b]. *)
Definition is_grad (f : vec3 R -> R) (b g : vec3 R) : Prop :=
  forall e, is_derive (fun t => f (move b e t)) 0 (vdot g e).
Definition is_grad2 (f : vec3 R -> vec3 R -> R) (b1 b2 g1 g2 : vec3 R) : Prop :=
  forall e1 e2, is_derive (fun t => f (move b1 e1 t) (move b2 e2 t)) 0 (vdot g1 e1 + vdot g2 e2).
Definition is_grad3 (f : vec3 R -> vec3 R -> vec3 R -> R) (b1 b2 b3 g1 g2 g3 : vec3 R) : Prop :=
  forall e1 e2 e3, is_derive (fun t => f (move b1 e1 t) (move b2 e2 t) (move b3 e3 t)) 0
                             (vdot g1 e1 + vdot g2 e2 + vdot g3 e3).
Definition is_grad4 (f : vec3 R -> vec3 R -> vec3 R -> vec3 R -> R) (b1 b2 b3 b4 g1 g2 g3 g4 : vec3 R) : Prop :=
  forall e1 e2 e3 e4, is_derive (fun t => f (move b1 e1 t) (move b2 e2 t) (move b3 e3 t) (move b4 e4 t)) 0
                             (vdot g1 e1 + vdot g2 e2 + vdot g3 e3 + vdot g4 e4).

Definition vzero : vec3 R := V3 0 0 0.
Definition vopp (v : vec3 R) : vec3 R := vscale (-1) v.
(** Cosine of the angle between two vectors. *)
Definition cosine (b1 b2 : vec3 R) : R := vdot b1 b2 / (sqrt (normSq b1) * sqrt (normSq b2)).
