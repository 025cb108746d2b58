(** What the structure of a species has to be, stated on its groups and per-atom lists only. *)
From Verif Require Import Base SpeciesModel.
Local Open Scope Z_scope.

(** Group [b] contains atom [a]. *)
Definition contains (gs : list sgroup) (b a : Z) : Prop :=
  exists g, 0 <= b /\ gs !! Z.to_nat b = Some g /\ a ∈ sgAtoms g.

(** Groups of [k] distinct atoms of the molecule; each atom lists exactly the groups that contain it, once. *)
Record topology_ok (k : nat) (nAtom : Z) (g : gtab) : Prop := {
  topo_n : Z.of_nat (length (gtGroups g)) = gtN g;
  topo_ids : Z.of_nat (length (gtIds g)) = nAtom;
  topo_groups : forall b gr, gtGroups g !! b = Some gr ->
    length (sgAtoms gr) = k /\ NoDup (sgAtoms gr) /\ forall a, a ∈ sgAtoms gr -> 0 <= a < nAtom;
  topo_lists : forall a l, gtIds g !! a = Some l ->
    NoDup l /\ forall b, b ∈ l <-> contains (gtGroups g) b (Z.of_nat a)
}.

Definition species_ok (s : species) : Prop :=
  Z.of_nat (length (spTypes s)) = spNAtom s /\
  topology_ok 2 (spNAtom s) (spBond s) /\
  topology_ok 3 (spNAtom s) (spAngle s) /\
  topology_ok 4 (spNAtom s) (spDihedral s).

(** The groups of a chain: group i joins atoms i, i+1, .., i+k-1. *)
Definition chain_groups (n : Z) (k : nat) (ty : Z -> Z) (gs : list sgroup) : Prop :=
  Z.of_nat (length gs) = n /\
  forall i g, gs !! i = Some g -> sgAtoms g = map (fun j => Z.of_nat i + j) (seqZ 0 (Z.of_nat k)) /\ sgType g = ty (Z.of_nat i).
(** The groups of a ring of [n] atoms. *)
Definition ring_groups (n : Z) (k : nat) (ty : Z -> Z) (gs : list sgroup) : Prop :=
  Z.of_nat (length gs) = n /\
  forall i g, gs !! i = Some g ->
    sgAtoms g = map (fun j => (Z.of_nat i + j) mod n) (seqZ 0 (Z.of_nat k)) /\ sgType g = ty (Z.of_nat i).
