From Verif Require Import Base Vec3 OrthoModel BoxSpec MonoModel.
From Coq Require Import Reals.
Local Open Scope R_scope.

Definition mono_op_ok (o : mono_op) : Prop :=
  match o with SetMono l _ => positive3 l | SetMonoOrtho l => positive3 l end.
Definition mbox (ops : list mono_op) : mono := fold_left mono_step ops mono_init.
Definition a_mbox (b : mono) : Prop := exists ops, Forall mono_op_ok ops /\ b = mbox ops.
(** The parameters last set. *)
Definition params (ops : list mono_op) : vec3 R * R :=
  match last ops with
  | Some (SetMono l d) => (l, d)
  | Some (SetMonoOrtho l) => (l, 0)
  | None => (V3 1 1 1, 0)
  end.
(** The cell spanned by the Bravais vectors: r = g0 a0 + g1 a1 + g2 a2, 0 <= g < 1. *)
Definition in_cell_of (a : vec3 (vec3 R)) (r : vec3 R) : Prop :=
  exists g, r = combo a g /\ forall i, (i < 3)%nat -> 0 <= vget g i < 1.
(** Positions less than one cell away from it. *)
Definition near_cell_of (a : vec3 (vec3 R)) (r : vec3 R) : Prop :=
  exists g, r = combo a g /\ forall i, (i < 3)%nat -> -1 <= vget g i < 2.
Definition applyMonoShifts (b : mono) (r : vec3 R) (t : vec3 Z) : vec3 R :=
  mono_applyShift b (mono_applyShift b (mono_applyShift b r 0 (vx t)) 1 (vy t)) 2 (vz t).
