(** Model of the generators of configurations: Generator, LinearGenerator and PointGenerator (src/mcMd/generators), over real numbers.  Random draws are
    arguments: a list of the positions or bond vectors that are drawn one after the other.  A loop that has used up all draws of a list without end is still
    running.  Left out: taking molecules from the simulation and returning them (the molecules are arguments), the states of mutable species, and output. *)
From Verif Require Import Base Vec3 BoxSpec McCellModel DomainModel SpeciesModel CellListModel PairListModel EnergyModel MoveModel.
From Coq Require Import Reals.
Local Open Scope R_scope.

(** Unit vector, and the outcome of randomBondLength for each bond type, LinearGenerator.cpp:65-67. *)
Definition bond_draw : Type := vec3 R * (Z -> R).
(** The draws of one call of attemptPlaceMolecule: the positions drawn for the first atom, LinearGenerator.cpp:43-46, and the draws for the other atoms. *)
Definition mol_draws : Type := list (vec3 R) * (nat -> list bond_draw).

Section Gnr.
  (** As in EnergyModel and MoveModel; [ds] is the array diameters. *)
  Variables (M : nat) (toGen : vec3 R -> vec3 R) (dist2 : vec3 R -> vec3 R -> R) (wrap : vec3 R -> vec3 R) (ds : list R).

  (** maxDiameter, Generator.cpp:139-145. *)
  Definition max_diameter : R := fold_left (fun m d => if Rlt_dec m d then d else m) ds 0.
  (** setupCellList, Generator.cpp:126-149, for a cell list [l] whose atom capacity is set. *)
  Definition setup_cells (lens : vec3 R) (l : clist) : outcome clist := cl_setup M lens max_diameter l.

  (** attemptPlaceAtom, Generator.cpp:52-81. *)
  Definition place_atom (s : mcs) (a : nat) : outcome (mcs * bool) :=
    let s := MC (move (sPos s) a (wrap (sPos s a))) (sTy s) (sCells s) in
    let? nb := get_neighbors M toGen (sCells s) (sPos s a) in
    let? di := zget ds (sTy s a) in
    let? ok := foldM (fun (ok : bool) j =>
      if ok then
        let? dj := zget ds (sTy s j) in
        let d := 1/2 * (di + dj) in
        Ok (if Rlt_dec (dist2 (sPos s j) (sPos s a)) (d * d) then false else true)
      else Ok false) true nb in
    if ok then let? l := cl_add M toGen (sCells s) a (sPos s a) in Ok (MC (sPos s) (sTy s) l, true) else Ok (s, false).

  (** The loop for the first atom, LinearGenerator.cpp:38-46 and PointGenerator.cpp:34-40: iAttempt is never incremented.  [None]: still running after all the
      draws of the list. *)
  Fixpoint place_first (qs : list (vec3 R)) (s : mcs) (a : nat) : outcome (option mcs) :=
    match qs with
    | [] => Ok None
    | q :: qs =>
      let? (s, ok) := place_atom (MC (move (sPos s) a q) (sTy s) (sCells s)) a in
      if ok then Ok (Some s) else place_first qs s a
    end.
  (** The loop for another atom, LinearGenerator.cpp:62-72, with at most the draws of the list; the bond type is 0, LinearGenerator.cpp:56. *)
  Fixpoint place_next (vs : list bond_draw) (s : mcs) (p a : nat) : outcome (mcs * bool) :=
    match vs with
    | [] => Ok (s, false)
    | (u, L) :: vs =>
      let? (s, ok) := place_atom (MC (move (sPos s) a (vadd (sPos s p) (vscale (L 0%Z) u))) (sTy s) (sCells s)) a in
      if ok then Ok (s, true) else place_next vs s p a
    end.
  (** The loop over the other atoms, LinearGenerator.cpp:57-79; [done]: the atoms placed so far, [p] the last of them, [i] their number. *)
  Fixpoint grow (next : nat -> list bond_draw) (done : list nat) (p : nat) (rest : list nat) (i : nat) (s : mcs) : outcome (mcs * bool) :=
    match rest with
    | [] => Ok (s, true)
    | a :: rest =>
      let? (s, ok) := place_next (take 100 (next i)) s p a in
      if ok then grow next (done ++ [a]) a rest (S i) s
      else let? l := foldM cl_delete (sCells s) done in Ok (MC (sPos s) (sTy s) l, false)
    end.
  (** attemptPlaceMolecule, LinearGenerator.cpp:32-83, and for a molecule of one atom PointGenerator.cpp:27-41. *)
  Definition place_mol (x : mol_draws) (s : mcs) (mol : list nat) : outcome (option (mcs * bool)) :=
    match mol with
    | [] => UB
    | a :: rest =>
      let? r := place_first x.1 s a in
      match r with None => Ok None | Some s => let? y := grow x.2 [a] a rest 1 s in Ok (Some y) end
    end.
  (** The loop over attempts, Generator.cpp:107-113, with at most the draws of the list. *)
  Fixpoint place_tries (xs : list mol_draws) (s : mcs) (mol : list nat) : outcome (option (mcs * bool)) :=
    match xs with
    | [] => Ok (Some (s, false))
    | x :: xs =>
      let? r := place_mol x s mol in
      match r with
      | None => Ok None
      | Some (s, ok) => if ok : bool then Ok (Some (s, true)) else place_tries xs s mol
      end
    end.
  (** generate, Generator.cpp:86-121, for the molecules [mols]; [tries] i: the draws for molecule i.  The system, the molecules that it has been given, and
      the value returned. *)
  Fixpoint generate (mols : list (list nat)) (tries : nat -> list mol_draws) (i : nat) (s : mcs) (given : list (list nat)) :
      outcome (option (mcs * list (list nat) * bool)) :=
    match mols with
    | [] => Ok (Some (s, given, true))
    | mol :: mols =>
      let? r := place_tries (take 200 (tries i)) s mol in
      match r with
      | None => Ok None
      | Some (s, ok) => if ok : bool then generate mols tries (S i) s (given ++ [mol]) else Ok (Some (s, given, false))
      end
    end.
End Gnr.
