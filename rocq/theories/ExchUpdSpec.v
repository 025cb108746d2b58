(** Specification of Exchanger::update and reverseUpdate, independent of the rounds. *)
From Verif Require Import Base Vec3 DomainModel EnergySpec ExchModel ExchSpec.
From Coq Require Import Reals.
Local Open Scope nat_scope.

(** What is at an address: rank and pointer. *)
Definition mem_at (sys : list xproc) (a : nat * nat) : xatom :=
  match sys !! a.1 with Some p => xpMem p a.2 | None => XA 0 0 (V3 0 0 0)%R 0%N (V3 0 0 0)%R 0 end.
(** Addresses of all local atoms, and of all ghosts. *)
Definition local_addrs (sys : list xproc) : list (nat * nat) :=
  flat_map (fun r => match sys !! r with Some p => map (pair r) (xpLocals p) | None => [] end) (seq 0 (length sys)).
Definition ghost_addrs (sys : list xproc) : list (nat * nat) :=
  flat_map (fun r => match sys !! r with Some p => map (pair r) (xpGhosts p) | None => [] end) (seq 0 (length sys)).
(** The same lists of atoms and ghosts and the same arrays, but any contents of the memory. *)
Definition same_lists (sys sys2 : list xproc) : Prop :=
  Forall2 (fun p p2 => xpDom p2 = xpDom p /\ xpLocals p2 = xpLocals p /\ xpGhosts p2 = xpGhosts p /\
                       (forall i j, xpSend p2 i j = xpSend p i j) /\ forall i j, xpRecv p2 i j = xpRecv p i j) sys sys2.
(** Boundary::applyShift adds multiples of the vectors [A] of the lattice. *)
Definition lattice_shift (A : nat -> vec3 R) (sh : vec3 R -> nat -> Z -> vec3 R) : Prop :=
  forall r i t, i < 3 -> sh r i t = vplus r (V3 (IZR t * vx (A i)) (IZR t * vy (A i)) (IZR t * vz (A i)))%R.
(** Position displaced by the vector with coefficients [k]. *)
Definition lattice_move (A : nat -> vec3 R) (r : vec3 R) (k : vec3 Z) : vec3 R :=
  V3 (vx r + IZR (vx k) * vx (A 0%nat) + IZR (vy k) * vx (A 1%nat) + IZR (vz k) * vx (A 2%nat))%R
     (vy r + IZR (vx k) * vy (A 0%nat) + IZR (vy k) * vy (A 1%nat) + IZR (vz k) * vy (A 2%nat))%R
     (vz r + IZR (vx k) * vz (A 0%nat) + IZR (vy k) * vz (A 1%nat) + IZR (vz k) * vz (A 2%nat))%R.
(** The owner of every ghost: address of a local atom, and the periods between them. *)
Definition owners := nat * nat -> (nat * nat) * vec3 Z.
(** Sum of a component of the forces at addresses. *)
Definition total_force (sys : list xproc) (l : list (nat * nat)) (c : nat) : R := sum_over l (fun a => vget (xForce (mem_at sys a)) c).
(** An atom with another position, or with another force. *)
Definition put_pos (a : xatom) (x : vec3 R) : xatom := XA (xId a) (xType a) x (xPlan a) (xForce a) (xRest a).
Definition put_force (a : xatom) (f : vec3 R) : xatom := XA (xId a) (xType a) (xPos a) (xPlan a) f (xRest a).
