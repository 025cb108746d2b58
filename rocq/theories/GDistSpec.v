(** What a distribution of groups has to do. *)
From Verif Require Import Base Containers Vec3 SpeciesModel BufferModel DistModel GDistModel.
Local Open Scope nat_scope.

(** The group with pointers to exactly the atoms that are local on the processor. *)
Definition placed (s : pstore) (g : pgroup) : pgroup :=
  PG (gpId g) (gpType g) (gpAtoms g) (map (fun i => if decide (i ∈ local_ids s) then Some i else None) (gpAtoms g)).
(** At least one atom is local. *)
Definition touches (s : pstore) (g : pgroup) : bool := existsb (fun i => bool_decide (i ∈ local_ids s)) (gpAtoms g).
Definition groups_on (s : pstore) (groups : list pgroup) : list pgroup := map (placed s) (List.filter (touches s) groups).

(** Groups of [N] atoms that can be distributed with a buffer [b] and a cache of [cap] groups: different ids in range, every atom of a group is local on exactly one
    processor, the storages are empty and large enough (see group_spare_refuted for the processors other than the master), a full
    cache fits into the buffer (see group_cache_refuted). *)
Record gdistributable (N : nat) (b : buffer) (cap : nat) (ls : list pstore) (ss : list pgstore) (groups : list pgroup) : Prop := {
  gd_len : length ss = length ls;
  gd_nonempty : ls <> [];
  gd_N : 0 < N /\ forall g, g ∈ groups -> length (gpAtoms g) = N;
  gd_ids : NoDup (map gpId groups);
  gd_range : forall g i s, g ∈ groups -> i ∈ gpAtoms g -> s ∈ ls -> (0 <= i < Z.of_nat (psTotal s))%Z;
  gd_owner : forall g i, g ∈ groups -> i ∈ gpAtoms g ->
    exists r s, ls !! r = Some s /\ i ∈ local_ids s /\ forall r' s', ls !! r' = Some s' -> i ∈ local_ids s' -> r' = r;
  gd_store : forall r l s, ls !! r = Some l -> ss !! r = Some s ->
    pgGroups s = [] /\ (forall g, g ∈ groups -> (0 <= gpId g < Z.of_nat (pgTotal s))%Z) /\
    length (groups_on l groups) + (if decide (r = 0) then 0 else 1) <= pgCap s;
  gd_cap : 0 < cap /\ 16 + group_bytes N * Nat.min cap (length groups) <= bCap b }.

(** A distributor of groups with a cache of [cap]: new, or after any number of distributions. *)
Inductive gusable (N : nat) (b : buffer) (cap : nat) : gdist -> Prop :=
| gu_new s : gusable N b cap (gd_make cap s)
| gu_again d ls ss groups d' ss' : gusable N b cap d -> gdistributable N b cap ls ss groups ->
    gdistribute N b ls d ss groups = Ok (Some (d', ss')) -> gusable N b cap d'.
