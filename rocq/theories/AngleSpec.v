(** What angle forces should be, and lifetimes of angle objects. *)
From Verif Require Import Base Vec3 BoxSpec BondModel AngleModel GradSpec.
From Coq Require Import Reals.
Local Open Scope R_scope.

(** [fs]: forces on atoms at [r0], [r1], [r2] bound by an angle potential of energy [en]: minus the
    gradient in the atom positions, no net force, no net torque. *)
Definition angle_forces_ok (en : R -> R) (r0 r1 r2 : vec3 R) (fs : vec3 (vec3 R)) : Prop :=
  is_grad3 (fun x0 x1 x2 => en (cosine (vsub x1 x0) (vsub x2 x1))) r0 r1 r2
    (vopp (vx fs)) (vopp (vy fs)) (vopp (vz fs)) /\
  vadd (vx fs) (vadd (vy fs) (vz fs)) = vzero /\
  vadd (cross r0 (vx fs)) (vadd (cross r1 (vy fs)) (cross r2 (vz fs))) = vzero.

Record angle_op := AngleSet { ao_name : aname; ao_type : nat; ao_value : R }.
Definition ca_life (n : nat) (k : ptab) (ops : list angle_op) : outcome cangle :=
  let? a := ca_setN ca_new n in let? a := ca_read a k in
  run (fun a o => ca_set a (ao_name o) (ao_type o) (ao_value o)) a ops.
Definition cs_life (n : nat) (k t : ptab) (ops : list angle_op) : outcome csangle :=
  let? a := cs_setN cs_new n in let? a := cs_read a k t in
  run (fun a o => cs_set a (ao_name o) (ao_type o) (ao_value o)) a ops.
Definition ha_life (n : nat) (k t : ptab) (ops : list angle_op) : outcome hangle :=
  let? a := ha_setN ha_new n in let? a := ha_read a k t in
  run (fun a o => ha_set a (ao_name o) (ao_type o) (ao_value o)) a ops.
