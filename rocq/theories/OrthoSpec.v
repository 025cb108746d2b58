(** Boxes a client can have: the default one followed by any set calls with
    positive edge lengths. *)
From Verif Require Import Base Vec3 OrthoModel BoxSpec.
From Coq Require Import Reals.
Local Open Scope R_scope.

Definition box_op_ok (o : box_op) : Prop :=
  match o with
  | SetOrtho l => positive3 l
  | SetTetra a bc => 0 < a /\ 0 < bc
  | SetCub a => 0 < a
  end.
Definition box (ops : list box_op) : ortho := fold_left box_step ops ortho_init.
(** [b] is a box set up by such calls. *)
Definition a_box (b : ortho) : Prop := exists ops, Forall box_op_ok ops /\ b = box ops.

(** Edge lengths of the box. *)
Definition edges (ops : list box_op) : vec3 R :=
  match last ops with
  | Some (SetOrtho l) => l
  | Some (SetTetra a bc) => V3 a bc bc
  | Some (SetCub a) => V3 a a a
  | None => V3 1 1 1
  end.
Definition system (ops : list box_op) : lattice :=
  match last ops with
  | Some (SetOrtho l) => Orthorhombic
  | Some (SetTetra a bc) => Tetragonal
  | Some (SetCub a) => Cubic
  | None => Orthorhombic
  end.

Definition in_box (b : ortho) (r : vec3 R) : Prop :=
  forall i, (i < 3)%nat -> 0 <= vget r i < vget (oLen b) i.

(** Apply a whole vector of shifts. *)
Definition applyShifts (b : ortho) (r : vec3 R) (t : vec3 Z) : vec3 R :=
  applyShift b (applyShift b (applyShift b r 0 (vx t)) 1 (vy t)) 2 (vz t).
