(** What a pair list should hold, and when it is out of date. *)
From Verif Require Import Base Vec3 BoxSpec CellListSpec PairListModel.
From Coq Require Import Reals.
Local Open Scope R_scope.

Section Spec.
  Context (dist2 : vec3 R -> vec3 R -> R) (masked : nat -> nat -> bool) (cut : R).
  (** Atoms [i] < [j] of the system are an unmasked pair closer than [cut]. *)
  Definition close (atoms : list nat) (pos : nat -> vec3 R) (x : nat * nat) : Prop :=
    x.1 ∈ atoms /\ x.2 ∈ atoms /\ (x.1 < x.2)%nat /\ masked x.1 x.2 = false /\ dist2 (pos x.1) (pos x.2) < cut * cut.
  (** [l] lists the close pairs, each once. *)
  Definition lists_close (atoms : list nat) (pos : nat -> vec3 R) (l : list (nat * nat)) : Prop :=
    NoDup l /\ forall x, x ∈ l <-> close atoms pos x.
End Spec.

(** More than [N] of the atoms lie in one cell of a grid with [n] cells along each axis. *)
Definition crowded (toGen : vec3 R -> vec3 R) (n : vec3 Z) (N : nat) (atoms : list nat) (pos : nat -> vec3 R) : Prop :=
  exists c l, NoDup l /\ l ⊆ atoms /\ (forall a, a ∈ l -> in_cell n c (toGen (pos a))) /\ (N < length l)%nat.

(** The pairs that a loop over the list visits, as atoms. *)
Definition visits (p : plist) (l : list (nat * nat)) : Prop :=
  forall fuel, (length l < fuel)%nat ->
    it_loop fuel (pl_begin p) = Ok (Some (map (fun x => (Some x.1, Some x.2)) l)).

(** States of a pair list: read with the given capacities and skin, initialized for atom ids below [cap] and a potential
    with the given cutoff, then used in any way; [M] is Cell::MaxAtomCell.  MdPairPotential::buildPairList is pl_setup,
    then pl_add for each atom, then pl_build. *)
Inductive pl_state (M cap A Pc : nat) (skin cutoff : R) : plist -> Prop :=
| PS_init p : pl_initialize (Z.of_nat cap) cutoff (pl_read (Z.of_nat A) (Z.of_nat Pc) skin) = Ok p ->
    pl_state M cap A Pc skin cutoff p
| PS_setup p lens q : pl_state M cap A Pc skin cutoff p -> pl_setup M lens p = Ok q -> pl_state M cap A Pc skin cutoff q
| PS_clear p q : pl_state M cap A Pc skin cutoff p -> pl_clear M p = Ok q -> pl_state M cap A Pc skin cutoff q
| PS_add p toGen a r q : pl_state M cap A Pc skin cutoff p -> pl_add M toGen p a r = Ok q -> pl_state M cap A Pc skin cutoff q
| PS_build p dist2 masked pos q :
    pl_state M cap A Pc skin cutoff p -> pl_build M dist2 masked pos p = Ok q -> pl_state M cap A Pc skin cutoff q
| PS_stat p : pl_state M cap A Pc skin cutoff p -> pl_state M cap A Pc skin cutoff (pl_clearStatistics p).

(** The pairs stored: atom1Ptrs_[k] with each of atom2Ptrs_[first_[k]] .. atom2Ptrs_[first_[k+1]-1], for k below
    nAtom1_. *)
Definition stored (p : plist) : list (option nat * option nat) :=
  flat_map (fun k => match pA1 p !! k, pFirst p !! k, pFirst p !! S k with
                     | Some a, Some f, Some f' => map (pair a) (take (Z.to_nat (f' - f)) (drop (Z.to_nat f) (pA2 p)))
                     | _, _, _ => []
                     end) (seq 0 (Z.to_nat (pN1 p))).
