(** What the nonbonded forces and energies of the parallel program are supposed to be: sums over all pairs of an atom and a periodic image of an atom. *)
From Verif Require Import Base Vec3 OrthoModel MonoModel BoxSpec OrthoSpec MonoSpec DomainModel DomainSpec DistSpec EnergySpec NbrModel NbrSpec ExchModel ExchSpec ExchUpdSpec.
From Coq Require Import Reals.
Local Open Scope nat_scope.

(** ** After the exchange *)
(** Ghosts and their owners: every ghost is an image of an atom; updates and reverse updates act as described. *)
Record linked (sys : list xproc) (own : owners) : Prop := {
  li_own : forall a, a ∈ ghost_addrs sys -> (own a).1 ∈ local_addrs sys /\ is_image (mem_at sys (own a).1) (own a).2 (mem_at sys a);
  li_update : forall A sh s2, lattice_shift A sh -> same_lists sys s2 -> exists s3, update sh s2 = Ok s3 /\ same_lists sys s3 /\
     (forall a, a ∈ ghost_addrs sys -> mem_at s3 a = put_pos (mem_at s2 a) (lattice_move A (xPos (mem_at s2 (own a).1)) (own a).2)) /\
     (forall a, a ∈ local_addrs sys -> mem_at s3 a = mem_at s2 a);
  li_reverse : forall s2, same_lists sys s2 -> exists s3, reverseUpdate s2 = Ok s3 /\ same_lists sys s3 /\
     (forall a, a ∈ local_addrs sys \/ a ∈ ghost_addrs sys -> exists f, mem_at s3 a = put_force (mem_at s2 a) f) /\
     (forall a c, a ∈ local_addrs sys -> c < 3 ->
        vget (xForce (mem_at s3 a)) c = (vget (xForce (mem_at s2 a)) c + sum_over (ghost_addrs sys) (fun b => if decide ((own b).1 = a) then vget (xForce (mem_at s2 b)) c else 0))%R) }.
(** All processors have exactly the images near their domains, none twice; atoms have different ids. *)
Record in_place (dims : vec3 Z) (s : vec3 R) (sys : list xproc) : Prop := {
  se_grid : grid_ok dims;
  se_dom : domains_of dims (map xpDom sys);
  se_nodup : Forall (fun p => NoDup (xpLocals p ++ xpGhosts p)) sys;
  se_closed : Forall (fun p => Forall (fun a => in_closed (xpDom p) (xPos a)) (locals p)) sys;
  se_ids : NoDup (map (fun u => xId u.2) (held sys));
  se_present : forall q p, sys !! q = Some p -> forall u k, u ∈ held sys -> near (xpDom p) s (translate (xPos u.2) k) -> exists b, b ∈ locals p ++ ghosts p /\ is_image u.2 k b;
  se_once : Forall (fun p => NoDup (map (fun b => (xId b, xPos b)) (locals p ++ ghosts p))) sys }.
(** No atom lies exactly on an upper face of its domain. *)
Definition lower (D : domain) : vec3 R := V3 (domainBound D 0 0) (domainBound D 1 0) (domainBound D 2 0).
Definition upper (D : domain) : vec3 R := V3 (domainBound D 0 1) (domainBound D 1 1) (domainBound D 2 1).
Definition off_faces (sys : list xproc) : Prop := Forall (fun p => Forall (fun a => owned (lower (xpDom p)) (upper (xpDom p)) (xPos a)) (locals p)) sys.

(** ** Pairs *)
(** An atom, another atom or the same, and the periods by which the second one is displaced. *)
Definition triple : Type := (nat * nat) * (nat * nat) * vec3 Z.
Definition negz (k : vec3 Z) : vec3 Z := V3 (- vx k)%Z (- vy k)%Z (- vz k)%Z.
Definition flip (t : triple) : triple := (t.1.2, t.1.1, negz t.2).
(** Separation vector of a pair. *)
Definition separation (A : nat -> vec3 R) (sys : list xproc) (t : triple) : vec3 R := vsub (xPos (mem_at sys t.1.1)) (lattice_move A (xPos (mem_at sys t.1.2)) t.2).
Definition type_of (sys : list xproc) (a : nat * nat) : Z := xType (mem_at sys a).
(** Pairs that interact: closer than the cutoff of their types, and not masked. *)
Definition interacting (A : nat -> vec3 R) (mk : Z -> Z -> bool) (cut2 : Z -> Z -> R) (sys : list xproc) (t : triple) : Prop :=
  t.1.1 ∈ local_addrs sys /\ t.1.2 ∈ local_addrs sys /\ (t.1.1 <> t.1.2 \/ t.2 <> V3 0 0 0)%Z /\
  mk (xId (mem_at sys t.1.1)) (xId (mem_at sys t.1.2)) = false /\
  (normSq (separation A sys t) < cut2 (type_of sys t.1.1) (type_of sys t.1.2))%R.
(** [P] lists every pair that interacts once in each of its two orders. *)
Definition every_pair (A : nat -> vec3 R) (mk : Z -> Z -> bool) (cut2 : Z -> Z -> R) (sys : list xproc) (P : list triple) : Prop :=
  NoDup P /\ forall t, t ∈ P <-> interacting A mk cut2 sys t.
(** Energy of a pair, force on its first atom, and the virial. *)
Definition pair_u (u : R -> Z -> Z -> R) (A : nat -> vec3 R) (sys : list xproc) (t : triple) : R :=
  u (normSq (separation A sys t)) (type_of sys t.1.1) (type_of sys t.1.2).
Definition pair_f (fo : R -> Z -> Z -> R) (A : nat -> vec3 R) (sys : list xproc) (t : triple) : vec3 R :=
  vscale (fo (normSq (separation A sys t)) (type_of sys t.1.1) (type_of sys t.1.2)) (separation A sys t).
Definition pair_w (fo : R -> Z -> Z -> R) (A : nat -> vec3 R) (sys : list xproc) (i j : nat) (t : triple) : R :=
  (vget (pair_f fo A sys t) i * vget (separation A sys t) j)%R.
(** Interactions do not depend on the order of the atoms. *)
Definition symmetric {T} (f : Z -> Z -> T) : Prop := forall a b, f a b = f b a.
Definition symmetric3 (f : R -> Z -> Z -> R) : Prop := forall r a b, f r a b = f r b a.

(** ** Later states *)
(** Ghosts are where their owners' images are; ids and types are those of the exchange. *)
Record follows (A : nat -> vec3 R) (own : owners) (sys sys2 : list xproc) : Prop := {
  fl_lists : same_lists sys sys2;
  fl_atoms : forall a, a ∈ local_addrs sys \/ a ∈ ghost_addrs sys -> xId (mem_at sys2 a) = xId (mem_at sys a) /\ xType (mem_at sys2 a) = xType (mem_at sys a);
  fl_pos : forall a, a ∈ ghost_addrs sys -> xPos (mem_at sys2 a) = lattice_move A (xPos (mem_at sys2 (own a).1)) (own a).2 }.
(** No atom is farther than [d] from where it was when the lists were built; [C] converts generalized to Cartesian coordinates. *)
Definition moved_little (C : vec3 R -> vec3 R) (d : R) (sys sys2 : list xproc) : Prop :=
  forall a, a ∈ local_addrs sys -> (normSq (vsub (xPos (mem_at sys2 a)) (C (xPos (mem_at sys a)))) <= d * d)%R.

(** Boxes: conversion to Cartesian coordinates, lengths, lattice vectors, shift, and the numbers of cells per cutoff that are good for them. *)
Inductive a_dd_box : (vec3 R -> vec3 R) -> vec3 R -> (nat -> vec3 R) -> (vec3 R -> nat -> Z -> vec3 R) -> Z -> Prop :=
| ddb_ortho b n : a_box b -> a_dd_box (genToCart b) (oLen b) (fun i => vset (V3 0 0 0)%R i (vget (oLen b) i)) (applyShift b) n
| ddb_mono b : a_mbox b -> a_dd_box (mono_genToCart b) (mLengths b) (fun i => match i with 0 => V3 (vx (mL b)) 0 0 | 1 => V3 0 (vy (mL b)) (mD b) | _ => V3 0 0 (vz (mL b)) end%R) (mono_applyShift b) 1.

(** Pair lists of all processors: each is visited by a loop that sees the pairs that [counted_once] says. *)
Definition listed_on (rev : bool) (C : vec3 R -> vec3 R) (cutoffs : vec3 R) (rc : R) (n : Z) (mk : Z -> Z -> bool) (p : xproc) (l : list (nat * nat)) : Prop :=
  counted_once rev (xpLocals p) (xpGhosts p)
    (interacts rc (fun h => C (xPos (xpMem p h))) (fun x y => mk (xId (xpMem p x)) (xId (xpMem p y))))
    (fun x y => lex_lt (cell_at (lower (xpDom p)) (upper (xpDom p)) cutoffs n (xPos (xpMem p x))) (cell_at (lower (xpDom p)) (upper (xpDom p)) cutoffs n (xPos (xpMem p y)))) l.
