(** Specification of the exchange of groups, independent of the rounds. *)
From Verif Require Import Base Vec3 DomainModel ExchModel ExchSpec GExchModel.
From Coq Require Import Reals.
Local Open Scope nat_scope.

(** A covalent group of the whole system: kind, id, type, and ids of its atoms. *)
Record bond := Bond { bKind : nat; bId : Z; bType : Z; bAtoms : list Z }.
Definition bkey (b : bond) : nat * Z := (bKind b, bId b).
(** The group that a record of a processor stands for. *)
Definition bond_of (g : ggroup) : bond := Bond (gKind g) (gId g) (gType g) (gAtoms g).

(** This processor has one record of every group in [G] with an atom among its local atoms, and no other records. *)
Record stored (G : list bond) (q : gproc) : Prop := {
  so_once : NoDup (map (fun g => bkey (bond_of g)) (gpGroups q));
  so_local : forall b, b ∈ map bond_of (gpGroups q) <-> b ∈ G /\ exists a, a ∈ locals (gpX q) /\ xId a ∈ bAtoms b;
  so_ptrs : forall g, g ∈ gpGroups q -> length (gPtrs g) = length (gAtoms g) }.
(** Atom [id] is the [k]th one of the group. *)
Definition kth (q : gproc) (g : ggroup) (k : nat) (id : Z) : Prop := g ∈ gpGroups q /\ gAtoms g !! k = Some id.
(** Pointer [k] of the group points to [h]. *)
Definition points (g : ggroup) (k h : nat) : Prop := gPtrs g !! k = Some (Some h).
(** Every pointer points to the local atom with the right id if there is one. *)
Definition points_local (q : gproc) : Prop := forall g k id, kth q g k id ->
  forall h, h ∈ xpLocals (gpX q) -> points g k h <-> xId (xpMem (gpX q) h) = id.
(** Other pointers point to ghosts with the right ids. *)
Definition points_ghost (q : gproc) : Prop := forall g k id, kth q g k id ->
  forall h, points g k h -> h ∈ xpLocals (gpX q) \/ h ∈ xpGhosts (gpX q) /\ xId (xpMem (gpX q) h) = id.
(** Other pointers are null. *)
Definition points_no_ghost (q : gproc) : Prop := forall g k id, kth q g k id -> forall h, points g k h -> h ∈ xpLocals (gpX q).
(** No pointer is null. *)
Definition points_all (q : gproc) : Prop := forall g k id, kth q g k id -> exists h, points g k h.
(** Records of a processor between two calls of exchange. *)
Definition groups_ok (G : list bond) (q : gproc) : Prop :=
  stored G q /\ points_local q /\ points_ghost q /\ forall h, h ∈ xpGhosts (gpX q) -> h ∉ xpLocals (gpX q).
(** Records of a processor between exchangeAtoms and exchangeGhosts. *)
Definition groups_local (G : list bond) (q : gproc) : Prop := stored G q /\ points_local q /\ points_no_ghost q.

(** The groups of the whole system, and different atoms with different ids. *)
Record group_system (dims : vec3 Z) (G : list bond) (sys : list gproc) : Prop := {
  gy_grid : grid_system dims (map gpX sys);
  gy_ids : NoDup (map (fun u => xId u.2) (held (map gpX sys)));
  gy_keys : NoDup (map bkey G);
  gy_groups : Forall (groups_ok G) sys }.

(** The same atoms, except for ghost flags that are added. *)
Definition more_ghosts (a b : xatom) : Prop :=
  xId b = xId a /\ xType b = xType a /\ xPos b = xPos a /\ xForce b = xForce a /\ xRest b = xRest a /\
  (forall i j, i < 3 -> j < 2 -> PlanModel.exchange (xPlan b) i j = PlanModel.exchange (xPlan a) i j /\ (PlanModel.ghost (xPlan a) i j = true -> PlanModel.ghost (xPlan b) i j = true)).
Definition marked (p q : xproc) : Prop :=
  xpDom q = xpDom p /\ xpLocals q = xpLocals p /\ xpGhosts q = xpGhosts p /\ forall h, more_ghosts (xpMem p h) (xpMem q h).

(** Every atom of a group exists. *)
Definition populated (G : list bond) (sys : list xproc) : Prop := forall b id, b ∈ G -> id ∈ bAtoms b -> exists u, u ∈ held sys /\ xId u.2 = id.
(** Atoms of a group have images closer than the slab widths along every axis with more than one processor. *)
Definition close (dims : vec3 Z) (s : vec3 R) (G : list bond) (sys : list xproc) : Prop := forall b u v, b ∈ G -> u ∈ held sys -> v ∈ held sys -> xId u.2 ∈ bAtoms b -> xId v.2 ∈ bAtoms b ->
  exists k, forall i, i < 3 -> (1 < vget dims i)%Z -> (Rabs (vget (translate (xPos u.2) k) i - vget (xPos v.2) i) < vget s i)%R.
(** The atoms of the group [g] of processor [q] have images [W] at most [e] apart; local atoms are at these places, and the old positions of ghosts are less than [s] away. *)
Definition placed (dims : vec3 Z) (s e : vec3 R) (sys : list xproc) (q : gproc) (g : ggroup) : Prop := exists W : Z -> vec3 R,
  (forall id, id ∈ gAtoms g -> exists u k, u ∈ held sys /\ xId u.2 = id /\ W id = translate (xPos u.2) k) /\
  (forall k id h, gAtoms g !! k = Some id -> points g k h ->
     (h ∈ xpLocals (gpX q) -> W id = xPos (xpMem (gpX q) h)) /\
     (h ∈ xpGhosts (gpX q) -> forall i, i < 3 -> (1 < vget dims i)%Z -> (Rabs (vget (xPos (xpMem (gpX q) h)) i - vget (W id) i) < vget s i)%R)) /\
  (forall id id' i, id ∈ gAtoms g -> id' ∈ gAtoms g -> i < 3 -> (1 < vget dims i)%Z -> (Rabs (vget (W id) i - vget (W id') i) <= vget e i)%R).
(** Number of groups of a kind. *)
Definition of_kind (k : nat) (G : list bond) : nat := length (List.filter (fun b => Nat.eqb (bKind b) k) G).
