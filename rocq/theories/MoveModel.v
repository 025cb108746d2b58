(** Model of Monte Carlo moves: AtomDisplaceMove, RigidDisplaceMove, EndSwapMove and HomopolymerSemiGrandMove
    (src/mcMd/mcMoves), over real numbers.  The random choices of each move are arguments.  Every move returns the energy
    difference it used, the new state, and whether it accepted.  The counters nAttempt and nAccept are left out. *)
From Verif Require Import Base Vec3 BoxSpec McCellModel DomainModel SpeciesModel CellListModel PairListModel EnergyModel.
From Coq Require Import Reals.
Local Open Scope R_scope.

(** SystemMove::boltzmann, SystemMove.h:100-101. *)
Definition boltzmann (beta e : R) : R := exp (- beta * e).
(** Random::metropolis (util, documented: true if ratio > 1, otherwise if a uniform deviate [r] in [0,1) is below ratio). *)
Definition metropolis (ratio r : R) : bool :=
  if Rlt_dec 1 ratio then true else if Rlt_dec r ratio then true else false.

Section Moves.
  (** As in EnergyModel. *)
  Variables (M : nat) (toGen : vec3 R -> vec3 R) (dist2 : vec3 R -> vec3 R -> R) (wrap : vec3 R -> vec3 R).
  Variables (masked : nat -> nat -> bool) (u : R -> Z -> Z -> R).
  Variables (kinds : list gkind) (ext : option (vec3 R -> Z -> R)) (molOf : nat -> nat).
  (** energyEnsemble().beta(). *)
  Variable beta : R.

  (** pairPotential().updateAtomCell, McPairPotential.h with CellList::updateAtomCell. *)
  Definition update_cell (s : mcs) (a : nat) : outcome mcs :=
    let? c := cl_update M toGen (sCells s) a (sPos s a) in Ok (MC (sPos s) (sTy s) c).

  (** AtomDisplaceMove::move, AtomDisplaceMove.cpp:68-106; [a] is the atom chosen, [d] the displacement, [r] the random
      number used by metropolis. *)
  Definition atom_displace (s : mcs) (a : nat) (d : vec3 R) (r : R) : outcome (R * mcs * bool) :=
    let old := sPos s a in
    let? oldE := sys_atom M toGen dist2 masked u kinds ext s a in
    let s1 := MC (move (sPos s) a (wrap (vadd old d))) (sTy s) (sCells s) in
    let? newE := sys_atom M toGen dist2 masked u kinds ext s1 a in
    let dE := newE - oldE in
    if metropolis (boltzmann beta dE) r then
      let? s2 := update_cell s1 a in Ok (dE, s2, true)
    else Ok (dE, MC (move (sPos s1) a old) (sTy s1) (sCells s1), false).

  (** pairPotential().atomEnergy + externalPotential().atomEnergy, RigidDisplaceMove.cpp:98-105, 122-129. *)
  Definition rigid_atom (s : mcs) (a : nat) : outcome R :=
    let? e := pair_atom M toGen dist2 masked u s a in Ok (e + ext_atom ext s a).
  (** Body of the second loop, RigidDisplaceMove.cpp:118-133. *)
  Definition rigid_step (d : vec3 R) (x : mcs * R) (a : nat) : outcome (mcs * R) :=
    let (s, e) := x in
    let s := MC (move (sPos s) a (wrap (vadd (sPos s a) d))) (sTy s) (sCells s) in
    let? ea := rigid_atom s a in Ok (s, e + ea).
  (** RigidDisplaceMove::move, RigidDisplaceMove.cpp:79-158, without tethers; [mol] are the atoms of the molecule chosen,
      [d] the displacement. *)
  Definition rigid_displace (s : mcs) (mol : list nat) (d : vec3 R) (r : R) : outcome (R * mcs * bool) :=
    let? oldE := foldM (fun e a => let? ea := rigid_atom s a in Ok (e + ea)) 0 mol in
    let old := map (sPos s) mol in
    let? (s1, newE) := foldM (rigid_step d) (s, 0) mol in
    let dE := newE - oldE in
    if metropolis (boltzmann beta dE) r then
      let? s2 := foldM update_cell s1 mol in Ok (dE, s2, true)
    else Ok (dE, MC (fold_left (fun p x => move p x.1 x.2) (zip mol old) (sPos s1)) (sTy s1) (sCells s1), false).

  (** molPtr->atom(i).setTypeId(t[i]) for all i, EndSwapMove.cpp:152-155, 173-175; Atom::setTypeId. *)
  Definition retype (ty : nat -> Z) (mol : list nat) (ts : list Z) : nat -> Z :=
    fold_left (fun ty x => fun b => if decide (b = x.1) then x.2 else ty b) (zip mol ts) ty.
  (** moleculeEnergy and the sum of the external energies, EndSwapMove.cpp:138-149, 158-170. *)
  Definition mol_energy (s : mcs) (mol : list nat) : outcome R :=
    let? e := pair_mol M toGen dist2 masked u molOf s mol in
    Ok (fold_left (fun e a => e + ext_atom ext s a) mol e).
  (** EndSwapMove::move, EndSwapMove.cpp:125-201; [types] is atomTypeIds_. *)
  Definition end_swap (types : list Z) (s : mcs) (mol : list nat) (r : R) : outcome (R * mcs * bool) :=
    let? oldE := mol_energy s mol in
    let s1 := MC (sPos s) (retype (sTy s) mol (rev types)) (sCells s) in
    let? newE := mol_energy s1 mol in
    let s2 := MC (sPos s1) (retype (sTy s1) mol types) (sCells s1) in
    let dE := newE - oldE in
    if metropolis (boltzmann beta dE) r then
      let ps := rev (map (sPos s2) mol) in
      let? s3 := foldM (fun s x => update_cell (MC (move (sPos s) x.1 x.2) (sTy s) (sCells s)) x.1) s2 (zip mol ps) in
      Ok (dE, s3, true)
    else Ok (dE, s2, false).

  (** HomopolymerSemiGrandMove::move, HomopolymerSemiGrandMove.cpp:74-118.  [typeOf] gives the atom type of each state
      (HomopolymerSG::setMoleculeState, HomopolymerSG.cpp:214-221, sets all atoms of the molecule to it), [w] is
      stateWeight, [st] is moleculeStateId of the molecule; the third component of the result is its new value.  The number
      of molecules in each state is in MutatorModel. *)
  Definition semigrand (typeOf : Z -> Z) (w : Z -> R) (s : mcs) (mol : list nat) (st : Z) (r : R)
      : outcome (R * mcs * Z * bool) :=
    let? oldE := pair_mol M toGen dist2 masked u molOf s mol in
    let new := if decide (st = 0%Z) then 1%Z else 0%Z in
    let s1 := MC (sPos s) (retype (sTy s) mol (map (fun _ => typeOf new) mol)) (sCells s) in
    let? newE := pair_mol M toGen dist2 masked u molOf s1 mol in
    let dE := newE - oldE in
    if metropolis (boltzmann beta dE * w new / w st) r then Ok (dE, s1, new, true)
    else Ok (dE, MC (sPos s1) (retype (sTy s1) mol (map (fun _ => typeOf st) mol)) (sCells s1), st, false).
End Moves.
