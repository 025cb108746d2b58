(** Model of McMd::SpeciesMutator (src/mcMd/species/SpeciesMutator.cpp, .h) and of setMoleculeState of its
    subclasses HomopolymerSG and LinearSG.  Statistical weights are left out. *)
From Verif Require Import Base SpeciesModel.
Local Open Scope Z_scope.

(** SpeciesMutator.h:168-183: stateOccupancies_, moleculeStateIds_; [mtTypes] are the type ids of the atoms
    of the molecules (Atom::typeId), by molecule id. *)
Record mutator := MT { mtOcc : list Z; mtState : list Z; mtTypes : list (list Z) }.

(** allocateSpeciesMutator, SpeciesMutator.cpp:33-52; [types] are the initial atom types. *)
Definition mt_alloc (nMolecule nState : nat) (types : list (list Z)) : mutator :=
  MT (replicate nState 0) (replicate nMolecule (-1)) types.

(** setMoleculeStateId, SpeciesMutator.cpp:57-69; [m] is molecule.id(). *)
Definition set_state_id (s : mutator) (m : nat) (st : Z) : outcome mutator :=
  let? _ := check (negb (bool_decide (st < 0) && bool_decide (st <> -1))) in
  let? old := aget (mtState s) m in
  let? occ := (if decide (old <> -1) then
                 let? n := zget (mtOcc s) old in zset (mtOcc s) old (n - 1)
               else Ok (mtOcc s)) in
  let? ids := aset (mtState s) m st in
  let? n := zget occ st in
  let? occ := zset occ st (n + 1) in
  Ok (MT occ ids (mtTypes s)).

(** HomopolymerSG::setMoleculeState, HomopolymerSG.cpp:214-221 ([ids] is the Pair<int> typeIds_). *)
Definition hsg_set_state (ids : list Z) (s : mutator) (m : nat) (st : Z) : outcome mutator :=
  let? ts := aget (mtTypes s) m in
  let? ts := foldM (fun ts i => let? t := zget ids st in aset ts i t) ts (seq 0 (length ts)) in
  let? all := aset (mtTypes s) m ts in
  set_state_id (MT (mtOcc s) (mtState s) all) m st.

(** LinearSG::setMoleculeState, LinearSG.cpp:222-235 ([b0], [b1] are beadTypeIds0_, beadTypeIds1_). *)
Definition lsg_set_state (b0 b1 : list Z) (s : mutator) (m : nat) (st : Z) : outcome mutator :=
  let? ts := aget (mtTypes s) m in
  let? ts := foldM (fun ts i => let? t := aget (if decide (st = 0) then b0 else b1) i in aset ts i t)
                   ts (seq 0 (length ts)) in
  let? all := aset (mtTypes s) m ts in
  set_state_id (MT (mtOcc s) (mtState s) all) m st.
