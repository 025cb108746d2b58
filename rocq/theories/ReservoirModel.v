(** Model of the transfer of molecules between the reservoirs of a McMd::Simulation and a McMd::System
    (src/mcMd/simulation/Simulation.cpp, System.cpp).  A molecule is its index in molecules_. *)
From Verif Require Import Base Containers SpeciesModel SimModel ActivateModel.

(** reservoirs_ (top of each stack first), the sets moleculeSetsPtr_[i] of one System, Molecule::systemPtr_
    (None is null; other systems are not modelled, so Some () is this System), and the activity of atoms.  Simulation.h:510, System.h:863, Molecule.h:366. *)
Record mstate := MS { msRes : list (list nat); msSet : list (list nat); msPtr : list (option ()); msAct : act }.
(** After initializeSpeciesData and allocateMoleculeSets (System.cpp:1093-1106): sets are empty, Molecule() (Molecule.cpp:21-23)
    makes systemPtr_ null. *)
Definition ms0 (s : sim) : mstate :=
  MS (siRes s) (replicate (length (siSpecies s)) []) (replicate (length (siMols s)) None) (act0 s).

(** molecule.species().id().  src/mcMd/chemistry/Molecule.h:418. *)
Definition species_of (s : sim) (m : nat) : outcome nat := let? ml := aget (siMols s) m in Ok (moSpecies ml).
(** Species::capacity(), Species.h:605. *)
Definition capacity_of (s : sim) (i : nat) : outcome nat := let? sp := aget (siSpecies s) i in Ok (Z.to_nat (spCap sp)).

(** Simulation::getMolecule, Simulation.cpp:912-917. *)
Definition get_molecule (s : sim) (st : mstate) (i : nat) : outcome (mstate * nat) :=
  let? r := aget (msRes st) i in
  let? (m, r) := stack_pop r in
  let? ac := activate s (msAct st) m in
  Ok (MS (<[i := r]> (msRes st)) (msSet st) (msPtr st) ac, m).
(** Simulation::returnMolecule, Simulation.cpp:922-926. *)
Definition return_molecule (s : sim) (st : mstate) (m : nat) : outcome mstate :=
  let? i := species_of s m in
  let? r := aget (msRes st) i in
  let? c := capacity_of s i in
  let? r := stack_push c r m in
  Ok (MS (<[i := r]> (msRes st)) (msSet st) (msPtr st) (msAct st)).
(** System::addMolecule, System.cpp:1111-1124; observers not modelled.  The base array of the set is the block of molecules of
    its species (Simulation.cpp:900-906), so append accepts every molecule of the species that is not in it. *)
Definition add_molecule (s : sim) (st : mstate) (m : nat) : outcome mstate :=
  let? i := species_of s m in
  let? _ := check (bool_decide (i < length (msSet st))) in
  let? l := aget (msSet st) i in
  let? l := set_append l m in
  let? p := aset (msPtr st) m (Some ()) in
  Ok (MS (msRes st) (<[i := l]> (msSet st)) p (msAct st)).
(** System::removeMolecule, System.cpp:1129-1142; molecule.system() dereferences systemPtr_ (Molecule.h:427-431, the
    assertion is not compiled). *)
Definition remove_molecule (s : sim) (st : mstate) (m : nat) : outcome mstate :=
  let? q := aget (msPtr st) m in
  match q with
  | None => UB
  | Some _ =>
    let? i := species_of s m in
    let? l := aget (msSet st) i in
    let? l := set_remove l m in
    let? p := aset (msPtr st) m None in
    Ok (MS (msRes st) (<[i := l]> (msSet st)) p (msAct st))
  end.

(** System::nMolecule (System.h:1128-1132), System::molecule (1137-1141), System::moleculeId (System.cpp:1189-1195, with ArraySet::index: the
    position of an object, -1 if it is not in the set). *)
Definition n_molecule (st : mstate) (i : nat) : outcome nat := let? l := aget (msSet st) i in Ok (length l).
(** System.h:1137-1141. *)
Definition molecule (st : mstate) (i j : nat) : outcome nat := let? l := aget (msSet st) i in aget l j.
(** System.cpp:1189-1195. *)
Definition molecule_id (s : sim) (st : mstate) (m : nat) : outcome Z :=
  let? i := species_of s m in
  let? l := aget (msSet st) i in
  Ok (match list_find (m =.) l with Some (j, _) => Z.of_nat j | None => (-1)%Z end).

(** The body of removeAllMolecules for one species, System.cpp:1169-1176: [fuel] bounds the while loop, whose number of
    iterations is nMolecule. *)
Fixpoint empty_species (s : sim) (i fuel : nat) (st : mstate) : outcome mstate :=
  let? n := n_molecule st i in
  match n, fuel with
  | 0, _ => Ok st
  | S n', 0 => UB
  | S n', S fuel' =>
    let? m := molecule st i n' in
    let? st := remove_molecule s st m in
    let? st := return_molecule s st m in
    empty_species s i fuel' st
  end.
(** System::removeAllMolecules, System.cpp:1163-1184, without links and observers. *)
Definition remove_all (s : sim) (st : mstate) : outcome mstate :=
  foldM (fun st i => let? n := n_molecule st i in empty_species s i n st) st (seq 0 (length (siSpecies s))).

(** Simulation.cpp:912-930 and System.cpp:1111-1184. *)
Inductive mop := OGet (i : nat) | OReturn (m : nat) | OAdd (m : nat) | ORemove (m : nat) | ORemoveAll.
(** Simulation.cpp:912-930 and System.cpp:1111-1184. *)
Definition mstep (s : sim) (st : mstate) (o : mop) : outcome mstate :=
  match o with
  | OGet i => let? (st, _) := get_molecule s st i in Ok st
  | OReturn m => return_molecule s st m
  | OAdd m => add_molecule s st m
  | ORemove m => remove_molecule s st m
  | ORemoveAll => remove_all s st
  end.
