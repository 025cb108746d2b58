(** Model of molecular dynamics with charges: McMd::MdEwaldPairPotentialImpl, MdSystem::calculateForces with a Coulomb potential,
    and the values that McMd::MdCoulombPotential and McMd::EwaldRSpaceAccumulator keep. *)
From Coq Require Import Reals.
From Coquelicot Require Import Coquelicot.
From Verif Require Import Base Vec3 BoxSpec OrthoModel MonoModel SpeciesModel CellListModel PairListModel EnergyModel MdModel EwaldModel.
From Coq Require Import Reals.
Local Open Scope R_scope.

Section Charged.
  (** The system as in MdModel, where forceOverR and cutoffSq are those of the pair interaction without charges (pairPtr_),
      the interaction of MdEwaldPotential, and AtomType::charge of each type. *)
  Variables (y : mdsys) (e : ewald) (q : Z -> R).

  (** forceOverR in MdEwaldPairPotentialImpl::addForces, MdEwaldPairPotentialImpl.h:404-409. *)
  Definition ew_forceOverR (rsq : R) (t0 t1 : Z) : R :=
    let qProduct := q t0 * q t1 in
    let f := rSpaceForceOverR e rsq qProduct in
    if Rlt_dec rsq (yCutsq y t0 t1) then f + yFr y rsq t0 t1 else f.
  (** MdEwaldPairPotentialImpl::addForces, MdEwaldPairPotentialImpl.h:395-415: the loop of md_pair_forces with
      ewaldCutoffSq for all types. *)
  Definition ew_pair_forces (fuel : nat) (p : plist) (pos : nat -> vec3 R) (F : nat -> vec3 R) : outcome (option (nat -> vec3 R)) :=
    md_pair_forces (yDr y) ew_forceOverR (fun _ _ => eRcSq e) fuel p pos (yTy y) F.
  (** The loop of MdEwaldPairPotentialImpl::computeEnergy, MdEwaldPairPotentialImpl.h:456-474: pEnergy and cEnergy; [u] is
      energy of pairPtr_. *)
  Definition ew_pair_energy (u : R -> Z -> Z -> R) (fuel : nat) (p : plist) (pos : nat -> vec3 R) : outcome (option (R * R)) :=
    let? o := it_loop fuel (pl_begin p) in
    match o with
    | None => Ok None
    | Some l =>
        let? r := foldM (fun (s : R * R) x => match x with
          | (Some i, Some j) =>
              let rsq := bDist (yB y) (pos i) (pos j) in
              if Rlt_dec rsq (eRcSq e) then
                let pE := if Rlt_dec rsq (yCutsq y (yTy y i) (yTy y j)) then s.1 + u rsq (yTy y i) (yTy y j) else s.1 in
                Ok (pE, s.2 + rSpaceEnergy e rsq (q (yTy y i) * q (yTy y j)))
              else Ok s
          | _ => UB
          end) (0, 0) l in Ok (Some r)
    end.

  Variables (kb : kbox) (kc : R).
  (** Charge of an atom, MdEwaldPotential.cpp:323-324. *)
  Definition atom_charge (a : nat) : R := q (yTy y a).
  (** if (!hasWaves()) makeWaves(), MdEwaldPotential.cpp:235-238; None if hasWaves_ is false. *)
  Definition need_waves (hw : option waves) : outcome waves := match hw with Some w => Ok w | None => makeWaves e kb kc end.
  (** MdSystem::calculateForces with a Coulomb potential, MdSystem.cpp:857-894. *)
  Definition charged_calc (pos : nat -> vec3 R) (F : nat -> vec3 R) (p : plist) (hw : option waves)
      : outcome ((nat -> vec3 R) * (nat -> vec3 R) * plist * waves) :=
    let F := zero_forces (yAtoms y) F in
    let? (pos, p) := md_list y pos p in
    let? o := ew_pair_forces (S (Z.to_nat (pN2 p))) p pos F in
    match o with
    | None => UB
    | Some F =>
        let F := fold_left (kind_forces pos) (yKinds y) F in
        let? w := need_waves hw in
        let? F := addForces kb (yAtoms y) atom_charge w pos F in
        let F := match yExt y with Some f => ext_forces f (yAtoms y) pos (yTy y) F | None => F end in
        Ok (pos, F, p, w)
    end.
End Charged.

(** * Kept values *)
(** MdEwaldPotential.h:125-200, MdCoulombPotential.h:195-210 and EwaldRSpaceAccumulator.h:58-62: the interaction, kSpaceCutoff_,
    the waves if hasWaves_, and the values kSpaceEnergy_, kSpaceStress_ and rSpaceEnergy_ if set; with the box and the
    positions of the atoms, which the potential only refers to. *)
Record coulomb := Co {
  oE : ewald;  oKc : R;  oW : option waves;  oKE : option R;  oKS : option tensor;  oRE : option R;
  oBox : kbox;  oPos : nat -> vec3 R
}.

Section Kept.
  (** The atoms and their charges; and the sum that computeEnergy of the pair potential stores as rSpaceEnergy_. *)
  Variables (atoms : list nat) (charge : nat -> R) (rsum : ewald -> kbox -> (nat -> vec3 R) -> R).

  (** MdCoulombPotential::unsetEnergy and unsetStress, MdCoulombPotential.cpp:72-73 and 103-104. *)
  Definition co_unset (s : coulomb) : coulomb := Co (oE s) (oKc s) (oW s) None None (oRE s) (oBox s) (oPos s).
  (** MdCoulombPotential::unsetWaves, MdCoulombPotential.cpp:62-67. *)
  Definition co_unsetWaves (s : coulomb) : coulomb := Co (oE s) (oKc s) None None None (oRE s) (oBox s) (oPos s).
  (** MdEwaldPotential::set, MdEwaldPotential.cpp:88-96; None is kSpaceCutoff. *)
  Definition co_set (s : coulomb) (n : option ew_name) (v : R) : coulomb :=
    co_unsetWaves (match n with
      | None => Co (oE s) v (oW s) (oKE s) (oKS s) (oRE s) (oBox s) (oPos s)
      | Some n => Co (ew_set (oE s) n v) (oKc s) (oW s) (oKE s) (oKS s) (oRE s) (oBox s) (oPos s)
      end).
  (** MdEwaldPotential::makeWaves, MdEwaldPotential.cpp:124-227, as it changes the object. *)
  Definition co_makeWaves (s : coulomb) : outcome coulomb :=
    let? w := makeWaves (oE s) (oBox s) (oKc s) in
    Ok (Co (oE s) (oKc s) (Some w) (oKE s) (oKS s) (oRE s) (oBox s) (oPos s)).
  (** computeKSpaceCharge as it changes waves, MdEwaldPotential.cpp:235-238. *)
  Definition co_need (s : coulomb) : outcome (coulomb * waves) :=
    match oW s with
    | Some w => Ok (s, w)
    | None => let? w := makeWaves (oE s) (oBox s) (oKc s) in
              Ok (Co (oE s) (oKc s) (Some w) (oKE s) (oKS s) (oRE s) (oBox s) (oPos s), w)
    end.
  (** MdCoulombPotential::kSpaceEnergy, MdCoulombPotential.cpp:78-84. *)
  Definition co_energy (s : coulomb) : outcome (coulomb * R) :=
    match oKE s with
    | Some x => Ok (s, x)
    | None =>
        let? (s, w) := co_need s in
        let? x := computeEnergy (oE s) (oBox s) atoms charge w (oPos s) in
        Ok (Co (oE s) (oKc s) (oW s) (Some x) (oKS s) (oRE s) (oBox s) (oPos s), x)
    end.
  (** MdCoulombPotential::kSpaceStress, MdCoulombPotential.cpp:109-115. *)
  Definition co_stress (s : coulomb) : outcome (coulomb * tensor) :=
    match oKS s with
    | Some x => Ok (s, x)
    | None =>
        let? (s, w) := co_need s in
        let? x := computeStress (oE s) (oBox s) atoms charge w (oPos s) in
        Ok (Co (oE s) (oKc s) (oW s) (oKE s) (Some x) (oRE s) (oBox s) (oPos s), x)
    end.
  (** EwaldRSpaceAccumulator::rSpaceEnergy, EwaldRSpaceAccumulator.cpp:13-20, and MdCoulombPotential.cpp:89-90. *)
  Definition co_rEnergy (s : coulomb) : coulomb * R :=
    match oRE s with
    | Some x => (s, x)
    | None => let x := rsum (oE s) (oBox s) (oPos s) in (Co (oE s) (oKc s) (oW s) (oKE s) (oKS s) (Some x) (oBox s) (oPos s), x)
    end.
  (** positionSignal().notify() after atoms moved: the observers unsetEnergy and unsetStress of the Coulomb potential,
      and of the pair potential, MdSystem.cpp:109-110, 963-1001 and 1170-1205, MdEwaldPairPotentialImpl.h:420-428. *)
  Definition co_move (s : coulomb) (pos : nat -> vec3 R) : coulomb := Co (oE s) (oKc s) (oW s) None None None (oBox s) pos.
  (** A step of NphIntegrator changes the box (NphIntegrator.cpp:211), moves atoms and notifies (NphIntegrator.cpp:252). *)
  Definition co_box (s : coulomb) (kb : kbox) (pos : nat -> vec3 R) : coulomb := co_move (Co (oE s) (oKc s) (oW s) (oKE s) (oKS s) (oRE s) kb (oPos s)) pos.

  (** The calls.  MdCoulombPotential.h:40-190. *)
  Inductive co_call :=
  | CSet (n : option ew_name) (v : R) | CMake | CUnsetWaves | CUnset | CEnergy | CStress | CREnergy
  | CMove (pos : nat -> vec3 R) | CBox (kb : kbox) (pos : nat -> vec3 R).
  (** One call.  MdCoulombPotential.h:40-190. *)
  Definition co_do (s : coulomb) (c : co_call) : outcome coulomb :=
    match c with
    | CSet n v => Ok (co_set s n v)
    | CMake => co_makeWaves s
    | CUnsetWaves => Ok (co_unsetWaves s)
    | CUnset => Ok (co_unset s)
    | CEnergy => let? (s, _) := co_energy s in Ok s
    | CStress => let? (s, _) := co_stress s in Ok s
    | CREnergy => Ok (co_rEnergy s).1
    | CMove pos => Ok (co_move s pos)
    | CBox kb pos => Ok (co_box s kb pos)
    end.
  (** Calls in a row.  MdCoulombPotential.h:40-190. *)
  Definition co_run (s : coulomb) (l : list co_call) : outcome coulomb := foldM co_do s l.
  (** The potential after its parameters are read, MdEwaldPotential.cpp:38-62: no waves, nothing set. *)
  Definition co_init (eps alpha rc kc : R) (kb : kbox) (pos : nat -> vec3 R) : coulomb :=
    Co (ew_read eps alpha rc) kc None None None None kb pos.
End Kept.
