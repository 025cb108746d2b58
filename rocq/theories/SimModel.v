(** Model of the initialisation of molecules, atoms and groups in McMd::Simulation (src/mcMd/simulation/Simulation.cpp)
    and of McMd::Mask, compiled with SIMP_BOND, SIMP_ANGLE and SIMP_DIHEDRAL and without SIMP_NOPAIR.  A pointer into one of the
    arrays molecules_, atoms_, bonds_, angles_, dihedrals_ is an index.  A member of Molecule that refers to groups
    is kept with the array of groups. *)
From Verif Require Import Base SpeciesModel.

(** Molecule.h: id_, speciesPtr_, nAtom_, firstAtomPtr_ as set by setId, setSpecies, setNAtom, setFirstAtom. *)
Record mol := Mol { moId : nat; moSpecies : nat; moNAtom : nat; moFirst : nat }.
(** Atom.h: moleculePtr_, typeId_ and the mask of the atom (the atoms it contains, oldest first). *)
Record atm := Atm { atMol : nat; atType : Z; atMask : list nat }.
(** Group.h:114-120 (atoms_, typeId_; nInActive_ is in ActivateModel). *)
Record grp := Grp { grAtoms : list Z; grType : Z }.
(** Default constructed objects.  src/mcMd/chemistry/Molecule.cpp:21. *)
Definition mol0 : mol := Mol 0 0 0 0.
(** src/mcMd/chemistry/Atom.cpp:52-98, 143. *)
Definition atm0 : atm := Atm 0 (-1) [].
(** src/mcMd/chemistry/Group.h:149. *)
Definition grp0 (k : nat) : grp := Grp (replicate k (-1)%Z) (-1).

(** Mask::append, Mask.cpp:41-51, with Capacity from Mask.h:66. *)
Definition mask_append (m : list nat) (a : nat) : outcome (list nat) :=
  let? _ := check (bool_decide (length m < 4)) in
  let? _ := check (negb (bool_decide (a ∈ m))) in
  Ok (m ++ [a]).
(** Mask::isMasked, Mask.h:84-91. *)
Definition is_masked (m : list nat) (a : nat) : bool := bool_decide (a ∈ m).
(** Mask::clear, Mask.cpp:30-36. *)
Definition mask_clear : list nat := [].

(** firstXIds_ and XCapacity_ of initializeSpeciesData, Simulation.cpp:524-525, 543-546 (molecules and atoms),
    527-540, 547-564 (groups): running sums of capacity times [per]. *)
Fixpoint first_ids (per : species -> Z) (c : nat) (sps : list species) : list nat :=
  match sps with
  | [] => []
  | s :: sps' => c :: first_ids per (c + Z.to_nat (spCap s) * Z.to_nat (per s)) sps'
  end.
(** Simulation.cpp:543-564. *)
Fixpoint capacity (per : species -> Z) (sps : list species) : nat :=
  match sps with [] => 0 | s :: sps' => Z.to_nat (spCap s) * Z.to_nat (per s) + capacity per sps' end.

(** A write through a pointer.  Loops of Simulation.cpp:639-900. *)
Definition ptr_upd {A} (l : list A) (p : nat) (f : A -> A) : outcome (list A) :=
  let? x := aget l p in aset l p (f x).

(** initializeSpeciesMolecules, Simulation.cpp:639-673; state: molecules_, atoms_, moleculePtr, atomPtr. *)
Definition init_atoms (sp : species) (p : nat) (atoms : list atm) (q : nat) : outcome (list atm * nat) :=
  foldM (fun '(atoms, q) i =>
    let? t := aget (spTypes sp) i in
    let? atoms := ptr_upd atoms q (fun a => Atm p t (atMask a)) in
    Ok (atoms, S q)) (atoms, q) (seq 0 (Z.to_nat (spNAtom sp))).
(** Simulation.cpp:639-673. *)
Definition init_molecules (i : nat) (sp : species) (p q : nat) (mols : list mol) (atoms : list atm)
  : outcome (list mol * list atm * nat * nat) :=
  foldM (fun '(mols, atoms, p, q) m =>
    let? mols := aset mols p (Mol m i (Z.to_nat (spNAtom sp)) q) in
    let? (atoms, q) := init_atoms sp p atoms q in
    Ok (mols, atoms, S p, q)) (mols, atoms, p, q) (seq 0 (Z.to_nat (spCap sp))).
(** Lines 677-682: pushes in decreasing order; the top of the stack is the head of the list.  Simulation.cpp:677-682. *)
Definition init_reservoir (p cap : nat) : list nat := seq p cap.

(** The part of a simulation that belongs to one kind of group: firstXIds_ is recomputed; firstXPtr_ and nX_ of each
    molecule; the array of groups.  Simulation.cpp:694-900. *)
Record groups := GS { gsMol : list (nat * nat); gsArr : list grp }.

(** A pair of masks, lines 744-747; atoms given by signed offset. *)
Definition mask_pair (atoms : list atm) (a0 a1 : Z) : outcome (list atm) :=
  let? x0 := zget atoms a0 in
  let? m0 := mask_append (atMask x0) (Z.to_nat a1) in
  let? atoms := zset atoms a0 (Atm (atMol x0) (atType x0) m0) in
  let? x1 := zget atoms a1 in
  let? m1 := mask_append (atMask x1) (Z.to_nat a0) in
  zset atoms a1 (Atm (atMol x1) (atType x1) m1).

(** The loop body for one group: lines 731-747 (bonds, with [mask] = MaskBonded), 804-816, 870-887; [base] is
    firstAtomPtr. *)
Definition init_group (mask : bool) (tab : gtab) (base : nat) (arr : list grp) (atoms : list atm) (gp b : nat)
  : outcome (list grp * list atm) :=
  let? g := aget (gtGroups tab) b in
  let ids := map (fun a => (Z.of_nat base + a)%Z) (sgAtoms g) in
  let? arr := aset arr gp (Grp ids (sgType g)) in
  let? atoms := (if mask then
                   match ids with
                   | [a0; a1] => mask_pair atoms a0 a1
                   | _ => UB
                   end
                 else Ok atoms) in
  Ok (arr, atoms).
(** initializeSpeciesBonds, Angles, Dihedrals: Simulation.cpp:694-757, 768-827, 838-895, for one species; state:
    the molecule members, the groups, atoms_, moleculePtr, groupPtr. *)
Definition init_groups (mask : bool) (mols : list mol) (sp : species) (tab : gtab) (p gp : nat) (gs : groups) (atoms : list atm)
  : outcome (groups * list atm) :=
  let? (gm, arr, atoms, _, _) :=
    foldM (fun '(gm, arr, atoms, p, gp) m =>
      let? ml := aget mols p in
      let? gm := aset gm p (gp, Z.to_nat (gtN tab)) in
      let? (arr, atoms, gp) :=
        foldM (fun '(arr, atoms, gp) b =>
          let? (arr, atoms) := init_group mask tab (moFirst ml) arr atoms gp b in
          Ok (arr, atoms, S gp)) (arr, atoms, gp) (seq 0 (Z.to_nat (gtN tab))) in
      Ok (gm, arr, atoms, S p, gp)) (gsMol gs, gsArr gs, atoms, p, gp) (seq 0 (Z.to_nat (spCap sp))) in
  Ok (GS gm arr, atoms).

(** The data initialised by initializeSpeciesData.  Simulation.cpp:435-634. *)
Record sim := Sim {
  siSpecies : list species; siMols : list mol; siAtoms : list atm; siRes : list (list nat);
  siBonds : groups; siAngles : groups; siDihedrals : groups
}.

(** Lines 581-590, 595-604, 609-618: allocation and the loop over species, skipped if there are no types.  Simulation.cpp:581-618. *)
Definition init_kind (on mask : bool) (k : nat) (sel : species -> gtab) (sps : list species) (mols : list mol) (atoms : list atm)
  : outcome (groups * list atm) :=
  let per := fun s => gtN (sel s) in
  if on then
    foldM (fun '(gs, atoms) '(sp, p, gp) => init_groups mask mols sp (sel sp) p gp gs atoms)
          (GS (replicate (length mols) (0, 0)) (replicate (Nat.max 1 (capacity per sps)) (grp0 k)), atoms)
          (zip (zip sps (first_ids (fun _ => 1%Z) 0 sps)) (first_ids per 0 sps))
  else Ok (GS (replicate (length mols) (0, 0)) [], atoms).

(** initializeSpeciesData, Simulation.cpp:435-623, called once (hasSpecies_ false).  [nB], [nA], [nD] are nBondType_,
    nAngleType_, nDihedralType_; [bonded] is maskedPairPolicy_ == MaskBonded.  ArrayStack::allocate (util) throws for a
    capacity that is not positive (line 521). *)
Definition init_sim (nB nA nD : Z) (bonded : bool) (sps : list species) : outcome sim :=
  let? _ := check (bool_decide (0 < length sps)) in
  let? _ := check (bool_decide (0 <= nB)%Z && bool_decide (0 <= nA)%Z && bool_decide (0 <= nD)%Z) in
  let? _ := forM (zip sps (seq 0 (length sps))) (fun '(sp, i) =>
      let? _ := check (bool_decide (spId sp = Z.of_nat i)) in
      check (bool_decide (0 < spCap sp)%Z)) in
  let fm := first_ids (fun _ => 1%Z) 0 sps in
  let fa := first_ids spNAtom 0 sps in
  let? (mols, atoms) :=
    foldM (fun '(mols, atoms) '(sp, p, q, i) =>
        let? (mols, atoms, _, _) := init_molecules i sp p q mols atoms in Ok (mols, atoms))
      (replicate (capacity (fun _ => 1%Z) sps) mol0, replicate (capacity spNAtom sps) atm0)
      (zip (zip (zip sps fm) fa) (seq 0 (length sps))) in
  let res := map (fun '(sp, p) => init_reservoir p (Z.to_nat (spCap sp))) (zip sps fm) in
  let? (gb, atoms) := init_kind (bool_decide (0 < nB)%Z) bonded 2 spBond sps mols atoms in
  let? (ga, atoms) := init_kind (bool_decide (0 < nA)%Z) false 3 spAngle sps mols atoms in
  let? (gd, atoms) := init_kind (bool_decide (0 < nD)%Z) false 4 spDihedral sps mols atoms in
  Ok (Sim sps mols atoms res gb ga gd).
