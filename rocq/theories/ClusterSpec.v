(** What clusters are: molecules connected by chains of molecules with core atoms closer than the cutoff. *)
From Verif Require Import Base Vec3 BoxSpec ClusterModel.
From stdpp Require Import relations.
From Coq Require Import Reals.
Local Open Scope R_scope.

Section Spec.
  Context (dist2 : vec3 R -> vec3 R -> R) (cutoff : R) (mols : list nat) (atomsOf : nat -> list nat) (core : nat -> bool).
  (** Two molecules with core atoms closer than the cutoff. *)
  Definition touch (pos : nat -> vec3 R) (m1 m2 : nat) : Prop :=
    m1 ∈ mols /\ m2 ∈ mols /\
    exists a b, a ∈ atomsOf m1 /\ b ∈ atomsOf m2 /\ core a = true /\ core b = true /\ dist2 (pos a) (pos b) < cutoff * cutoff.
  Definition connected (pos : nat -> vec3 R) : nat -> nat -> Prop := rtc (touch pos).
End Spec.

(** The same by periodic images: some image of a core atom of one is closer than the cutoff to a core atom of the other. *)
Definition touch_images (A : vec3 (vec3 R)) (cutoff : R) (mols : list nat) (atomsOf : nat -> list nat) (core : nat -> bool) (pos : nat -> vec3 R) (m1 m2 : nat) : Prop :=
  m1 ∈ mols /\ m2 ∈ mols /\
  exists a b n, a ∈ atomsOf m1 /\ b ∈ atomsOf m2 /\ core a = true /\ core b = true /\
    normSq (vadd (vsub (pos a) (pos b)) (lattice_vector A n)) < cutoff * cutoff.

(** The links from a pointer on, following next(). *)
Inductive linked (links : list clink) : option nat -> list nat -> Prop :=
| linked_nil : linked links None []
| linked_cons i l tl : links !! i = Some l -> linked links (lNext l) tl -> linked links (Some i) (i :: tl).

(** What identifyClusters should leave: clusters are numbered from 0, each cluster lists its molecules once by next() from head(), with
    their number as size(), every molecule is in one cluster, and two molecules are in the same one if and only if they
    are connected. *)
Definition clusters_are (conn : nat -> nat -> Prop) (mols : list nat) (links : list clink) (cs : list cluster) : Prop :=
  (forall k c, cs !! k = Some c -> cId c = Z.of_nat k /\ exists L, linked links (cHead c) L /\ NoDup L /\ L <> [] /\ cSize c = Z.of_nat (length L) /\
     forall m, m ∈ L <-> m ∈ mols /\ exists l, links !! m = Some l /\ lCl l = Z.of_nat k) /\
  (forall m, m ∈ mols -> exists l k, links !! m = Some l /\ lMol l = Some m /\ lCl l = Z.of_nat k /\ (k < length cs)%nat) /\
  (forall m1 m2 l1 l2, m1 ∈ mols -> m2 ∈ mols -> links !! m1 = Some l1 -> links !! m2 = Some l2 -> lCl l1 = lCl l2 <-> conn m1 m2).
