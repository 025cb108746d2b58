(** What a distribution of atoms has to do. *)
From Verif Require Import Base Containers Vec3 OrthoModel DomainModel DomainSpec BufferModel BufferSpec DistModel.
From Coq Require Import Reals.
Local Open Scope nat_scope.

(** The atom as it has to arrive: wrapped into the primary cell. *)
Definition wrapped (a : patom) : patom := PA (tId a) (shiftGen1 (tPos a)) (tMask a) (tRest a).
(** Number of processors. *)
Definition n_proc (dims : vec3 Z) : nat := Z.to_nat (grid_size dims).
(** The domains of all processors, in order of rank. *)
Definition domains_of (dims : vec3 Z) (Ds : list domain) : Prop :=
  length Ds = n_proc dims /\ forall r D, Ds !! r = Some D -> domain_of dims (Z.of_nat r) D.
(** The wrapped atoms that belong to the domain [D], in the order in which they were read. *)
Definition atoms_of (D : domain) (atoms : list patom) : list patom := List.filter (fun a => isInDomain D (tPos a)) (map wrapped atoms).

(** Atoms that can be distributed to processors with domains [Ds] and storages [ss]: within one box length of the primary cell, different
    ids, at most three masked atoms each (see dist_full_masks_refuted); the storages are empty and large enough. *)
Record distributable (Ds : list domain) (ss : list pstore) (atoms : list patom) : Prop := {
  da_pos : forall a, a ∈ atoms -> forall i, i < 3 -> (-1 <= vget (tPos a) i < 2)%R;
  da_ids : NoDup (map tId atoms);
  da_mask : forall a, a ∈ atoms -> tMask a <= 3;
  da_len : length ss = length Ds;
  da_store : forall r D s, Ds !! r = Some D -> ss !! r = Some s ->
    psAtoms s = [] /\ length (atoms_of D atoms) <= psCap s /\ forall a, a ∈ atoms -> (0 <= tId a < Z.of_nat (psTotal s))%Z }.

(** A distributor of the master: new, or after any number of distributions. *)
Inductive usable (h : bool) (b : buffer) (dims : vec3 Z) (Ds : list domain) : distr -> Prop :=
| us_new c m s : usable h b dims Ds (dist_new b (n_proc dims) c m s)
| us_again d ss atoms d' ss' n : usable h b dims Ds d -> distributable Ds ss atoms ->
    distribute h b Ds d ss atoms = Ok (Some (d', ss', n)) -> usable h b dims Ds d'.
