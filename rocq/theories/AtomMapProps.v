(** Property C18: the atom map always finds the local atom, else a ghost. *)
From Verif Require Import Base AtomMapModel AtomMapSpec AtomMapProofs.
From stdpp Require Import gmap.

(** C18.  For every assignment of ids, every choice made by the multimap, every
    capacity and every history that meets the class preconditions: nothing
    undefined happens, find answers correctly for every id in range, and the
    counters count. *)
Theorem atom_map_find_correct :
  forall idof choose cap ops,
  respects idof choose (amap_allocate cap) (Contents ∅ ∅) ops ->
  exists m c, map_run idof choose (amap_allocate cap) (Contents ∅ ∅) ops = Some (m, c) /\
    (forall id, (0 <= id < Z.of_nat cap)%Z ->
       exists r, map_find m id = Ok r /\ find_correct idof c id r) /\
    nLoc m = Z.of_nat (size (locals c)) /\
    nGhost m = Z.of_nat (size (ghosts c)).
Proof.
  intros idof choose cap ops H.
  destruct (map_run_inv idof choose ops _ _ (minv_init idof cap) H) as (m & c & Hr & I).
  exists m, c. split; [done|].
  pose proof (map_run_len _ _ _ _ _ _ _ Hr) as Hl. simpl in Hl. rewrite replicate_length in Hl.
  split; [|split; apply I].
  intros id Hid. apply find_ok; [done|]. apply in_range_true. by rewrite Hl.
Qed.

(** When do the calls succeed?  After any such history, adding a local atom
    succeeds exactly if its id is in range and no atom - local or ghost - with the
    same id is present; removing succeeds exactly for atoms that are present. *)
Theorem atom_map_success_conditions :
  forall idof choose cap ops,
  respects idof choose (amap_allocate cap) (Contents ∅ ∅) ops ->
  forall m c, map_run idof choose (amap_allocate cap) (Contents ∅ ∅) ops = Some (m, c) ->
  (forall p, p ∉ locals c -> p ∉ ghosts c ->
     (is_ok (addLocal idof m p) <->
      (0 <= idof p < Z.of_nat cap)%Z /\ forall q, q ∈ locals c ∪ ghosts c -> idof q <> idof p)) /\
  (forall p, p ∉ ghosts c -> (is_ok (removeLocal idof choose m p) <-> p ∈ locals c)) /\
  (forall p, p ∉ locals c -> (is_ok (removeGhost idof choose m p) <-> p ∈ ghosts c)).
Proof.
  intros idof choose cap ops H m c Hr.
  destruct (map_run_inv idof choose ops _ _ (minv_init idof cap) H) as (m' & c' & Hr' & I).
  rewrite Hr in Hr'. injection Hr' as <- <-.
  pose proof (map_run_len _ _ _ _ _ _ _ Hr) as Hl. simpl in Hl. rewrite replicate_length in Hl.
  split; [|split].
  - intros p H1 H2. rewrite <- Hl. by apply (addLocal_Ok_iff idof m c).
  - intros p H1. by apply (removeLocal_Ok_iff idof choose m c).
  - intros p H1. by apply (removeGhost_Ok_iff idof choose m c).
Qed.

(** A worked history: a local atom and a ghost share an id; after the local atom
    leaves it is refused re-entry while a ghost holds the slot, and found after clearing. *)
Example atom_map_example :
  let idof p := match p with PL n => Z.of_nat n | PG n => (Z.of_nat n - 10)%Z end in
  let ops := [MAddLocal (PL 3); MAddGhost (PG 13); MRemoveLocal (PL 3);
              MAddLocal (PL 3); MClearGhosts [PG 13]; MAddLocal (PL 3)] in
  respects idof (fun _ => 0) (amap_allocate 5) (Contents ∅ ∅) ops /\
  exists m c, map_run idof (fun _ => 0) (amap_allocate 5) (Contents ∅ ∅) ops = Some (m, c) /\
     map_find m 3%Z = Ok (Some (PL 3)) /\ nGhost m = 0%Z.
Proof.
  split.
  - repeat split; try set_solver.
  - eexists _, _. split; [reflexivity|]. split; reflexivity.
Qed.

Print Assumptions atom_map_find_correct.
Print Assumptions atom_map_success_conditions.
