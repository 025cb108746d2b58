(** Properties C19 (slots are conserved) and C53 (a snapshot locks the storage). *)
From Verif Require Import Base Containers AtomMapModel AtomMapSpec AtomMapProofs
  AtomStorageModel AtomStorageSpec AtomStorageProofs.
From stdpp Require Import gmap.

(** C19.  After any history whatever - including calls that throw - nothing
    undefined has happened; each slot is in exactly one place; nAtom and nGhost of
    the map count the atoms in use; and find answers correctly for the atoms in
    use. *)
Theorem atom_storage_slots_conserved :
  forall choose capA capG total ops, Forall (st_op_ok capA capG) ops ->
  exists s, st_run choose (storage_init capA capG total) ops = Some s /\
    slots_conserved capA capG s /\
    nLoc (smap s) = Z.of_nat (length (aSet s)) /\
    nGhost (smap s) = Z.of_nat (length (gSet s)) /\
    (forall id, (0 <= id < Z.of_nat total)%Z ->
       exists r, map_find (smap s) id = Ok r /\ find_correct (st_id s) (st_contents s) id r).
Proof.
  intros choose capA capG total ops Ho.
  destruct (st_run_good choose capA capG total ops _ (sinv_init capA capG total) Ho) as (s & Hr & I).
  exists s. split; [done|]. split; [split; apply I|].
  destruct (sinv_counts _ _ _ _ I) as [? ?]. split; [done|]. split; [done|].
  intros id Hid. apply find_ok; [apply I|]. apply in_range_true. by rewrite (s_len _ _ _ _ I).
Qed.

(** C19.  The class's own check isValid() never reports an error, whenever no
    pointer is handed out. *)
Theorem atom_storage_always_valid :
  forall choose capA capG total ops s, Forall (st_op_ok capA capG) ops ->
  st_run choose (storage_init capA capG total) ops = Some s ->
  newA s = None -> newG s = None -> st_isValid s = true.
Proof.
  intros choose capA capG total ops s Ho Hr HA HG.
  destruct (st_run_good choose capA capG total ops _ (sinv_init capA capG total) Ho) as (s' & Hr' & I).
  rewrite Hr in Hr'. injection Hr' as <-. by apply (storage_valid capA capG total).
Qed.

(** C19.  clearAtoms and clearGhosts on an unlocked storage succeed and leave it
    without atoms (ghosts), after any history. *)
Theorem atom_storage_clear :
  forall choose capA capG total ops s, Forall (st_op_ok capA capG) ops ->
  st_run choose (storage_init capA capG total) ops = Some s -> locked s = false ->
  (exists s', clearAtoms choose s = ROk s' tt /\ aSet s' = []) /\
  (exists s', clearGhostAtoms s = ROk s' tt /\ gSet s' = [] /\ aSet s' = aSet s).
Proof.
  intros choose capA capG total ops s Ho Hr HL.
  destruct (st_run_good choose capA capG total ops _ (sinv_init capA capG total) Ho) as (s0 & Hr' & I).
  rewrite Hr in Hr'. injection Hr' as <-. split.
  - destruct (clearAtoms_ok choose capA capG total s I HL) as (s' & H1 & _ & H2). eauto.
  - destruct (clearGhostAtoms_ok choose capA capG total s I HL) as (s' & H1 & _ & H2 & H3). eauto.
Qed.

Example atom_storage_example :
  let ops := [OAddAtom 4; OAddGhost 2; OAddAtom 4; OSetId 1; OAddNew; OAddGhost 1;
              ORemoveAtom 0; OAddGhost 2; OClearGhosts] in
  Forall (st_op_ok 3 4) ops /\
  exists s, st_run (fun _ => 0) (storage_init 3 4 5) ops = Some s /\
            st_counts s = (1, 0) /\ aSet s = [1] /\ st_isValid s = true.
Proof.
  split; [repeat constructor|]. eexists. split; [vm_compute; reflexivity|].
  vm_compute. done.
Qed.

(** C53, as a user would state it, is false: with a snapshot held (locked), removing
    an atom succeeds and changes the number of atoms. *)
Theorem snapshot_lock_refuted :
  exists s s', st_run (fun _ => 0) (storage_init 2 1 2) [OAddAtom 0; OAddAtom 1; OMakeSnapshot] = Some s /\
    locked s = true /\
    st_step (fun _ => 0) s (ORemoveAtom 0) = ROk s' tt /\ st_counts s' <> st_counts s.
Proof.
  eexists _, _. split; [vm_compute; reflexivity|]. split; [done|].
  split; [vm_compute; reflexivity|]. vm_compute. congruence.
Qed.

(** C53, what is true: while a snapshot is held, every other operation that
    completes leaves the numbers of atoms and ghosts unchanged. *)
Theorem snapshot_lock_partial :
  forall choose s o s', locked s = true -> (forall n, o <> ORemoveAtom n) ->
  st_step choose s o = ROk s' tt -> st_counts s' = st_counts s.
Proof. exact locked_keeps. Qed.

Print Assumptions atom_storage_slots_conserved.
Print Assumptions atom_storage_always_valid.
Print Assumptions atom_storage_clear.
Print Assumptions snapshot_lock_refuted.
Print Assumptions snapshot_lock_partial.
