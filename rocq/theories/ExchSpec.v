(** Specification of the exchange of atoms and ghosts, independent of the rounds. *)
From Verif Require Import Base Vec3 DomainModel DomainSpec DistSpec ExchModel.
From Coq Require Import Reals.
Local Open Scope nat_scope.

(** Atoms and ghosts of a processor. *)
Definition locals (p : xproc) : list xatom := map (xpMem p) (xpLocals p).
Definition ghosts (p : xproc) : list xatom := map (xpMem p) (xpGhosts p).
(** All local atoms, each with the rank of its processor. *)
Definition held (sys : list xproc) : list (nat * xatom) := flat_map (fun r => match sys !! r with Some p => map (pair r) (locals p) | None => [] end) (seq 0 (length sys)).

(** The processors of the grid [dims] in order of rank, each with different pointers for different atoms. *)
Record grid_system (dims : vec3 Z) (sys : list xproc) : Prop := {
  gs_grid : grid_ok dims;
  gs_domains : domains_of dims (map xpDom sys);
  gs_pointers : Forall (fun p => NoDup (xpLocals p) /\ Forall (fun h => h < xpNext p) (xpLocals p)) sys }.

(** Translation by whole periods, in generalized coordinates. *)
Definition translate (x : vec3 R) (k : vec3 Z) : vec3 R := V3 (vx x + IZR (vx k))%R (vy x + IZR (vy k))%R (vz x + IZR (vz k))%R.
(** Position in a domain, its faces included. *)
Definition in_closed (D : domain) (x : vec3 R) : Prop := forall i, i < 3 -> (domainBound D i 0 <= vget x i <= domainBound D i 1)%R.
(** Position at most [m] outside of a domain along every axis. *)
Definition within (D : domain) (m : vec3 R) (x : vec3 R) : Prop :=
  forall i, i < 3 -> (domainBound D i 0 - vget m i <= vget x i <= domainBound D i 1 + vget m i)%R.
(** Position less than [s] outside of a domain along every axis. *)
Definition near (D : domain) (s : vec3 R) (x : vec3 R) : Prop :=
  forall i, i < 3 -> (domainBound D i 0 - vget s i < vget x i < domainBound D i 1 + vget s i)%R.
(** Width of a domain along an axis. *)
Definition width (dims : vec3 Z) (i : nat) : R := (/ IZR (vget dims i))%R.

(** Atoms that have not left their domains by more than [m], which is no more than the width of a domain. *)
Definition displaced (dims : vec3 Z) (m : vec3 R) (sys : list xproc) : Prop :=
  (forall i, i < 3 -> (0 <= vget m i <= width dims i)%R) /\
  forall p a, p ∈ sys -> a ∈ locals p -> within (xpDom p) m (xPos a).

(** [b] is the atom [a] after it has been moved by whole periods; forces are not kept. *)
Definition same_atom (a b : xatom) : Prop := xId b = xId a /\ xType b = xType a /\ xRest b = xRest a /\ exists k, xPos b = translate (xPos a) k.
(** [b] is at the place of the periodic image [k] of [a]. *)
Definition is_image (a : xatom) (k : vec3 Z) (b : xatom) : Prop := xId b = xId a /\ xType b = xType a /\ xPos b = translate (xPos a) k.
(** Slabs with the widths [s], such that an atom that has been displaced by [m] is not in the slab at the far side of the next domain. *)
Definition slabs (dims : vec3 Z) (m s : vec3 R) : Prop := forall i, i < 3 -> (0 < vget s i /\ vget s i + vget m i <= width dims i)%R.
