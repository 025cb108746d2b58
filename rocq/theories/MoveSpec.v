(** Configurations of a Monte Carlo simulation and what a move may do. *)
From stdpp Require Import gmap.
From Verif Require Import Base Vec3 BoxSpec CellListModel CellListSpec PairListModel PairListSpec EnergyModel EnergySpec.
From Coq Require Import Reals.
Local Open Scope R_scope.

(** The cell list [l] was set up for this boundary and cutoff and then used properly, and it now holds exactly the given
    atoms at the positions [Q].  [M] is Cell::MaxAtomCell, [cap] the atom capacity, [n] the numbers of cells. *)
Definition holding (M cap : nat) (toGen : vec3 R -> vec3 R) (lens : vec3 R) (cut : R) (n : vec3 Z) (atoms : list nat)
    (l : clist) (Q : nat -> vec3 R) : Prop :=
  exists l0 l1 ops, length (clTags l0) = cap /\ cl_setup M lens cut l0 = Ok l1 /\
    cl_proper toGen n (M - 2) cap ∅ ops /\ run (cl_step M toGen) l1 ops = Ok l /\
    forall a, holds ops !! a = if decide (a ∈ atoms) then Some (Q a) else None.

(** The cell list of the system holds its atoms at their positions. *)
Definition synced M cap toGen lens cut n atoms (s : mcs) : Prop := holding M cap toGen lens cut n atoms (sCells s) (sPos s).

(** The same positions and types for all atoms, and the same cell list. *)
Definition same_state (s t : mcs) : Prop :=
  (forall a, sPos s a = sPos t a) /\ (forall a, sTy s a = sTy t a) /\ sCells s = sCells t.

(** The atom at the mirrored place of a chain: the i-th atom from the start goes to the i-th from the end. *)
Definition mirror (mol : list nat) (a : nat) : nat :=
  match list_find (fun b => b = a) mol with
  | Some (i, _) => match rev mol !! i with Some b => b | None => a end
  | None => a
  end.
(** Only the first [k] atoms of [mol] are at their new places. *)
Definition midway (mol : list nat) (k : nat) (new old : nat -> vec3 R) : nat -> vec3 R :=
  fun b => if decide (b ∈ take k mol) then new b else old b.

(** A bonded potential looks the same from both ends of the chain: read backwards, the groups of this chain are the same
    groups, and the energy of a group does not depend on the direction in which it is read.  The groups of other molecules
    do not involve the chain. *)
Definition palindromic (mol : list nat) (k : gkind) : Prop :=
  (forall ps t, kE k (rev ps) t = kE k ps t) /\
  forall m, m ∈ kMols k ->
    map (fun g => Grp (rev (map (mirror mol) (gAt g))) (gTy g)) (kGrp k m) ≡ₚ kGrp k m \/
    forall g a, g ∈ kGrp k m -> a ∈ gAt g -> a ∉ mol.

(** The groups of [k] successive atoms of a chain, all of one type. *)
Definition chain_groups (mol : list nat) (k : nat) (t : Z) : list group :=
  map (fun i => Grp (take k (drop i mol)) t) (seq 0 (length mol + 1 - k)).
