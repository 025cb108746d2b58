(** Model of MdSystem::calculateForces and of the NVE velocity-Verlet integrators, over real numbers.  Atoms are their ids;
    interaction classes and the boundary enter as functions.  Coulomb, special, link and tether forces are left out, as are
    the position and velocity signals. *)
From Verif Require Import Base Vec3 BoxSpec OrthoModel MonoModel McCellModel DomainModel SpeciesModel CellListModel PairListModel EnergyModel.
From Coq Require Import Reals.
Local Open Scope R_scope.

(** One bonded potential with its forces: [fF] gives, for the positions of the atoms of a group and its type id, the vectors
    force1, force2, ... that act between consecutive atoms of the group.  src/mcMd/potentials/bond/BondPotentialImpl.h addForces, and the same for angles and dihedrals. *)
Record fkind := FK { fK : gkind;  fF : list (vec3 R) -> Z -> list (vec3 R) }.

(** The force of a bond, BondPotentialImpl.h:368-370. *)
Definition bond_kF (dr2 : vec3 R -> vec3 R -> R * vec3 R) (fr : R -> Z -> R) (ps : list (vec3 R)) (t : Z) : list (vec3 R) :=
  match ps with [p0; p1] => let (rsq, d) := dr2 p0 p1 in [vscale (fr rsq t) d] | _ => [] end.
(** The forces of an angle, AnglePotentialImpl.h:411-416. *)
Definition angle_kF (dr2 : vec3 R -> vec3 R -> R * vec3 R) (f : vec3 R -> vec3 R -> Z -> vec3 R * vec3 R)
    (ps : list (vec3 R)) (t : Z) : list (vec3 R) :=
  match ps with
  | [p0; p1; p2] => let (f1, f2) := f (dr2 p1 p0).2 (dr2 p2 p1).2 t in [f1; f2]
  | _ => []
  end.
(** The forces of a dihedral, DihedralPotentialImpl.h:393-400. *)
Definition dihedral_kF (dr2 : vec3 R -> vec3 R -> R * vec3 R) (f : vec3 R -> vec3 R -> vec3 R -> Z -> vec3 R * vec3 R * vec3 R)
    (ps : list (vec3 R)) (t : Z) : list (vec3 R) :=
  match ps with
  | [p0; p1; p2; p3] => let '(f1, f2, f3) := f (dr2 p1 p0).2 (dr2 p2 p1).2 (dr2 p3 p2).2 t in [f1; f2; f3]
  | _ => []
  end.

(** force1 is added to the first atom and subtracted from the second, force2 is added to the second, and so on:
    BondPotentialImpl.h:371-372, AnglePotentialImpl.h:417-420, DihedralPotentialImpl.h:402-407. *)
Fixpoint chain_scatter (F : nat -> vec3 R) (ats : list nat) (fs : list (vec3 R)) : nat -> vec3 R :=
  match ats, fs with
  | i :: (j :: _) as rest, f :: fs => chain_scatter (scatter F i j f) rest fs
  | _, _ => F
  end.
(** addForces of a bonded potential: BondPotentialImpl.h:353-378, AnglePotentialImpl.h:395-424,
    DihedralPotentialImpl.h:373-411. *)
Definition kind_forces (pos : nat -> vec3 R) (F : nat -> vec3 R) (k : fkind) : nat -> vec3 R :=
  fold_left (fun F m => fold_left (fun F g => chain_scatter F (gAt g) (fF k (map pos (gAt g)) (gTy g))) (kGrp (fK k) m) F)
    (kMols (fK k)) F.
(** ExternalPotentialImpl::addForces, ExternalPotentialImpl.h:264-278. *)
Definition ext_forces (f : vec3 R -> Z -> vec3 R) (atoms : list nat) (pos : nat -> vec3 R) (ty : nat -> Z) (F : nat -> vec3 R) : nat -> vec3 R :=
  fold_left (fun F a => move F a (vadd (F a) (f (pos a) (ty a)))) atoms F.
(** MdSystem::setZeroForces, MdSystem.cpp:764-775. *)
Definition zero_forces (atoms : list nat) (F : nat -> vec3 R) : nat -> vec3 R := fold_left (fun F a => move F a vzero) atoms F.

(** An MdSystem: Cell::MaxAtomCell; the boundary and its distanceSq(r1, r2, dr); Mask::isMasked; forceOverR and cutoffSq of
    the pair interaction; the bonded potentials in the order bond, angle, dihedral; getForce of the external interaction, if
    any; the atoms in the order of the loops over species, molecules and atoms; Atom::typeId; AtomType::mass; and dt_ of the
    integrator.  src/mcMd/mdSimulation/MdSystem.h. *)
Record mdsys := MS {
  yM : nat;  yB : boundary;  yDr : vec3 R -> vec3 R -> R * vec3 R;  yMask : nat -> nat -> bool;
  yFr : R -> Z -> Z -> R;  yCutsq : Z -> Z -> R;  yKinds : list fkind;  yExt : option (vec3 R -> Z -> vec3 R);
  yAtoms : list nat;  yTy : nat -> Z;  yMass : Z -> R;  yDt : R
}.
(** Position, velocity and force of every atom (src/mcMd/chemistry/Atom.h), with whatever else the calculation of forces keeps;
    in an MdSystem that is the PairList of the MdPairPotential. *)
Record mds (X : Type) := Mds { mPos : nat -> vec3 R;  mVel : nat -> vec3 R;  mFrc : nat -> vec3 R;  mX : X }.
Arguments Mds {X} _ _ _ _.
Arguments mPos {X} _ _.
Arguments mVel {X} _ _.
Arguments mFrc {X} _ _.
Arguments mX {X} _.

Section Md.
  Variable y : mdsys.

  (** if (!isPairListCurrent()) buildPairList(), NveVvIntegrator.cpp:152-154 and MdPairPotentialImpl.h:339-341. *)
  Definition md_list (pos : nat -> vec3 R) (p : plist) : outcome ((nat -> vec3 R) * plist) :=
    md_update (yM y) (bGen (yB y)) (bDist (yB y)) (bWrap (yB y)) (bLens (yB y)) (yMask y) (yAtoms y) pos p.
  (** MdSystem::calculateForces, MdSystem.cpp:857-884.  The loop over pairs ends after nPair() steps (C12); a longer loop
      counts as UB here. *)
  Definition md_calc (pos : nat -> vec3 R) (F : nat -> vec3 R) (p : plist) : outcome ((nat -> vec3 R) * (nat -> vec3 R) * plist) :=
    let F := zero_forces (yAtoms y) F in
    let? (pos, p) := md_list pos p in
    let? o := md_pair_forces (yDr y) (yFr y) (yCutsq y) (S (Z.to_nat (pN2 p))) p pos (yTy y) F in
    match o with
    | None => UB
    | Some F =>
        let F := fold_left (kind_forces pos) (yKinds y) F in
        let F := match yExt y with Some f => ext_forces f (yAtoms y) pos (yTy y) F | None => F end in
        Ok (pos, F, p)
    end.

  (** prefactors_[typeId] of NveVvIntegrator::setup, NveVvIntegrator.cpp:71-79, and ddMd NveIntegrator::setup,
      ddMd/integrators/NveIntegrator.cpp:91-98. *)
  Definition prefactor (a : nat) : R := 1/2 * yDt y / yMass y (yTy y a).
  (** The first loop over atoms, NveVvIntegrator.cpp:112-126, and integrateStep1, ddMd/integrators/NveIntegrator.cpp:104-122. *)
  Definition integrate1 (F : nat -> vec3 R) (s : (nat -> vec3 R) * (nat -> vec3 R)) : (nat -> vec3 R) * (nat -> vec3 R) :=
    fold_left (fun (s : (nat -> vec3 R) * (nat -> vec3 R)) a => let (pos, vel) := s in
      let v := vadd (vel a) (vscale (prefactor a) (F a)) in
      (move pos a (vadd (pos a) (vscale (yDt y) v)), move vel a v)) (yAtoms y) s.
  (** The second loop over atoms, NveVvIntegrator.cpp:160-170, and integrateStep2, ddMd/integrators/NveIntegrator.cpp:127-141. *)
  Definition integrate2 (F vel : nat -> vec3 R) : nat -> vec3 R :=
    fold_left (fun vel a => move vel a (vadd (vel a) (vscale (prefactor a) (F a)))) (yAtoms y) vel.

  (** A velocity-Verlet step, NveVvIntegrator.cpp:97-185, with any way [calc] of computing forces, which may also move atoms
      to other images. *)
  Definition vv_step {X} (calc : (nat -> vec3 R) -> (nat -> vec3 R) -> X -> outcome ((nat -> vec3 R) * (nat -> vec3 R) * X))
      (s : mds X) : outcome (mds X) :=
    let (pos, vel) := integrate1 (mFrc s) (mPos s, mVel s) in
    let? r := calc pos (mFrc s) (mX s) in
    let '(pos, F, x) := r in
    Ok (Mds pos (integrate2 F vel) F x).
  (** Several steps: the loop of MdSimulation::simulate, MdSimulation.cpp:468-487, without analyzers and the
      call of shiftAtoms that precedes them. *)
  Fixpoint vv_run {X} (calc : (nat -> vec3 R) -> (nat -> vec3 R) -> X -> outcome ((nat -> vec3 R) * (nat -> vec3 R) * X))
      (n : nat) (s : mds X) : outcome (mds X) :=
    match n with
    | O => Ok s
    | S n => let? s := vv_step calc s in vv_run calc n s
    end.
  (** The middle part of NveVvIntegrator::step, NveVvIntegrator.cpp:151-157. *)
  Definition nve_calc (pos F : nat -> vec3 R) (p : plist) : outcome ((nat -> vec3 R) * (nat -> vec3 R) * plist) :=
    let? (pos, p) := md_list pos p in md_calc pos F p.
  (** Steps of the NveVvIntegrator.  src/mcMd/mdIntegrators/NveVvIntegrator.cpp:97, called by MdSimulation.cpp:486. *)
  Definition nve_run (n : nat) (s : mds plist) : outcome (mds plist) := vv_run nve_calc n s.
  (** MdSystem::readConfig, MdSystem.cpp:655-671, once positions and velocities are read. *)
  Definition md_start (pos vel F : nat -> vec3 R) (p : plist) : outcome (mds plist) :=
    let? (pos, p) := pl_refresh (yM y) (bGen (yB y)) (bDist (yB y)) (bWrap (yB y)) (bLens (yB y)) (yMask y) (yAtoms y) pos p in
    let? r := md_calc pos F p in
    let '(pos, F, p) := r in Ok (Mds pos vel F p).
End Md.
