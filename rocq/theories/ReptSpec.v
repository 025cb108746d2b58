(** What a reptation does to a chain, and the energies that decide about it. *)
From stdpp Require Import gmap.
From Verif Require Import Base Vec3 EnergySpec CfbSpec.
From Coq Require Import Reals.
Local Open Scope R_scope.

(** Every atom of the chain [c] takes over what its successor has, the last one gets [x]; other atoms keep what they have. *)
Definition reptated {T} (c : list nat) (f : nat -> T) (x : T) (a : nat) : T :=
  match list_find (fun b => b = a) c with
  | Some (i, _) => if decide (S i < length c)%nat then f (nth_atom c (S i)) else x
  | None => f a
  end.

(** Pairs of atoms of the chain [c] that are masked: those bonded to each other, or none; no pair with one atom in the chain only. *)
Definition chain_masks (bonded : bool) (masked : nat -> nat -> bool) (c : list nat) : Prop :=
  (forall a b, masked a b = masked b a) /\
  forall i b, (i < length c)%nat ->
    masked (nth_atom c i) b = true <-> bonded = true /\ exists k, (k < length c)%nat /\ b = nth_atom c k /\ (k = S i \/ i = S k).

(** All atoms but one. *)
Definition without (atoms : list nat) (a : nat) : list nat := List.filter (fun b => negb (bool_decide (b = a))) atoms.

(** Pair and external energy of the atoms [S]. *)
Definition site_energy (dist2 : vec3 R -> vec3 R -> R) (masked : nat -> nat -> bool) (u : R -> Z -> Z -> R) (ext : option (vec3 R -> Z -> R))
    (S : list nat) (pos : nat -> vec3 R) (ty : nat -> Z) : R :=
  pair_energy dist2 masked u S pos ty + external_energy ext S pos ty.

(** Sum of Boltzmann factors. *)
Definition weight_of (beta : R) (es : list R) : R := sum_over es (fun e => exp (- beta * e)).
