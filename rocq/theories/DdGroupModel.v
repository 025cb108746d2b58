(** Model of the energies, stresses and forces of covalent groups in the parallel program: BondPotentialImpl, AnglePotentialImpl, DihedralPotentialImpl and
    ExternalPotentialImpl (src/ddMd/potentials), and Simulation::computeForces with all of them.  Coordinates are Cartesian and real numbers; MPI Reduce adds up what the
    processors have.  Which potentials are there is not modelled: the storage of groups of a kind that is not used is empty. *)
From Verif Require Import Base Containers Vec3 BoxSpec PlanModel DomainModel SpeciesModel ExchModel GExchModel NbrModel DdPairModel.
From Coq Require Import Reals.
Local Open Scope nat_scope.

(** iter->atomPtr(k), Group.h:355-356; a null pointer is followed by all users. *)
Definition gptr (g : ggroup) (k : nat) : outcome nat := match gPtrs g !! k with Some (Some h) => Ok h | _ => UB end.
(** !atomPtr->isGhost(), e.g. BondPotentialImpl.h:378-379. *)
Definition isLocal (q : xproc) (h : nat) : bool := negb (bool_decide (h ∈ xpGhosts q)).
(** isLocal as an int, e.g. AnglePotentialImpl.h:411. *)
Definition localInt (q : xproc) (h : nat) : R := if isLocal q h then 1%R else 0%R.
(** if (isLocal) force += f, e.g. BondPotentialImpl.h:385-390. *)
Definition add_local (q : xproc) (m : nat -> xatom) (hf : nat * vec3 R) : nat -> xatom := if isLocal q hf.1 then add_force m hf else m.
(** The groups of a storage in the order of its iterator, storage().begin(iter), e.g. BondPotentialImpl.h:372-373. *)
Definition kind_groups (k : nat) (gs : list ggroup) : list ggroup := List.filter (fun g => Nat.eqb (gKind g) k) gs.

Section groups.
  (** distanceSq of the boundary, without and with the separation. *)
  Variables (dsq : vec3 R -> vec3 R -> R) (dsr : vec3 R -> vec3 R -> R * vec3 R).

  (** ** Bonds *)
  (** energy and forceOverR of the interaction. *)
  Variables (bu bfo : R -> Z -> R).
  (** Loop body of BondPotentialImpl::computeForces, BondPotentialImpl.h:374-390. *)
  Definition bond_force (q : xproc) (m : nat -> xatom) (g : ggroup) : outcome (nat -> xatom) :=
    let? h0 := gptr g 0 in let? h1 := gptr g 1 in
    let d := dsr (xPos (m h0)) (xPos (m h1)) in
    let f := vscale (bfo d.1 (gType g)) d.2 in
    Ok (add_local q (add_local q m (h0, f)) (h1, neg3 f)).
  (** BondPotentialImpl::computeForces, BondPotentialImpl.h:362-392. *)
  Definition bond_forces (k : nat) (gs : list ggroup) (q : xproc) : outcome xproc := let? m := foldM (bond_force q) (xpMem q) (kind_groups k gs) in Ok (with_mem q m).
  (** localEnergy of BondPotentialImpl::computeEnergy, BondPotentialImpl.h:409-439. *)
  Definition bond_energy (k : nat) (gs : list ggroup) (q : xproc) : outcome R :=
    foldM (fun e g => let? h0 := gptr g 0 in let? h1 := gptr g 1 in
      let u := bu (dsq (xPos (xpMem q h0)) (xPos (xpMem q h1))) (gType g) in
      Ok (if isLocal q h0 && isLocal q h1 then e + u else e + 1/2 * u)%R) 0%R (kind_groups k gs).
  (** Element (i, j) of localStress before the division by the volume, BondPotentialImpl::computeStress, BondPotentialImpl.h:458-494. *)
  Definition bond_stress (i j : nat) (k : nat) (gs : list ggroup) (q : xproc) : outcome R :=
    foldM (fun e g => let? h0 := gptr g 0 in let? h1 := gptr g 1 in
      let d := dsr (xPos (xpMem q h0)) (xPos (xpMem q h1)) in
      let fo := (if isLocal q h0 && isLocal q h1 then bfo d.1 (gType g) else 1/2 * bfo d.1 (gType g))%R in
      Ok (e + vget (vscale fo d.2) i * vget d.2 j)%R) 0%R (kind_groups k gs).

  (** ** Angles *)
  (** energy(cosTheta, type) and force(b1, b2, f1, f2, type) of the interaction. *)
  Variables (ae : R -> Z -> R) (af : vec3 R -> vec3 R -> Z -> vec3 R * vec3 R).
  (** Loop body of AnglePotentialImpl::computeForces, AnglePotentialImpl.h:344-364. *)
  Definition angle_force (q : xproc) (m : nat -> xatom) (g : ggroup) : outcome (nat -> xatom) :=
    let? h0 := gptr g 0 in let? h1 := gptr g 1 in let? h2 := gptr g 2 in
    let dr1 := (dsr (xPos (m h1)) (xPos (m h0))).2 in let dr2 := (dsr (xPos (m h2)) (xPos (m h1))).2 in
    let f := af dr1 dr2 (gType g) in
    let m := add_local q m (h0, f.1) in
    let m := add_local q (add_local q m (h1, neg3 f.1)) (h1, f.2) in
    Ok (add_local q m (h2, neg3 f.2)).
  (** AnglePotentialImpl::computeForces, AnglePotentialImpl.h:331-366. *)
  Definition angle_forces (k : nat) (gs : list ggroup) (q : xproc) : outcome xproc := let? m := foldM (angle_force q) (xpMem q) (kind_groups k gs) in Ok (with_mem q m).
  (** localEnergy of AnglePotentialImpl::computeEnergy, AnglePotentialImpl.h:380-419; fraction is a third of the number of local atoms. *)
  Definition angle_energy (k : nat) (gs : list ggroup) (q : xproc) : outcome R :=
    foldM (fun e g => let? h0 := gptr g 0 in let? h1 := gptr g 1 in let? h2 := gptr g 2 in
      let d1 := dsr (xPos (xpMem q h1)) (xPos (xpMem q h0)) in let d2 := dsr (xPos (xpMem q h2)) (xPos (xpMem q h1)) in
      let c := (vdot d1.2 d2.2 / sqrt (d1.1 * d2.1))%R in
      let fraction := ((localInt q h0 + localInt q h1 + localInt q h2) * (1 / 3))%R in
      Ok (e + fraction * ae c (gType g))%R) 0%R (kind_groups k gs).
  (** Element (i, j) of localStress before the division by the volume, AnglePotentialImpl::computeStress, AnglePotentialImpl.h:429-479. *)
  Definition angle_stress (i j : nat) (k : nat) (gs : list ggroup) (q : xproc) : outcome R :=
    foldM (fun e g => let? h0 := gptr g 0 in let? h1 := gptr g 1 in let? h2 := gptr g 2 in
      let dr1 := (dsr (xPos (xpMem q h1)) (xPos (xpMem q h0))).2 in let dr2 := (dsr (xPos (xpMem q h2)) (xPos (xpMem q h1))).2 in
      let f := af dr1 dr2 (gType g) in
      let factor := (- (1) / 3 * (localInt q h0 + localInt q h1 + localInt q h2))%R in
      Ok (e + vget f.1 i * vget (vscale factor dr1) j + vget f.2 i * vget (vscale factor dr2) j)%R) 0%R (kind_groups k gs).

  (** ** Dihedrals *)
  (** energy(b1, b2, b3, type) and force(b1, b2, b3, f1, f2, f3, type) of the interaction. *)
  Variables (de : vec3 R -> vec3 R -> vec3 R -> Z -> R) (df : vec3 R -> vec3 R -> vec3 R -> Z -> vec3 (vec3 R)).
  (** dr1, dr2 and dr3, e.g. DihedralPotentialImpl.h:389-401. *)
  Definition dihedral_drs (m : nat -> xatom) (h0 h1 h2 h3 : nat) : vec3 (vec3 R) :=
    V3 (dsr (xPos (m h1)) (xPos (m h0))).2 (dsr (xPos (m h2)) (xPos (m h1))).2 (dsr (xPos (m h3)) (xPos (m h2))).2.
  (** Loop body of DihedralPotentialImpl::computeForces, DihedralPotentialImpl.h:388-419. *)
  Definition dihedral_force (q : xproc) (m : nat -> xatom) (g : ggroup) : outcome (nat -> xatom) :=
    let? h0 := gptr g 0 in let? h1 := gptr g 1 in let? h2 := gptr g 2 in let? h3 := gptr g 3 in
    let d := dihedral_drs m h0 h1 h2 h3 in
    let f := df (vx d) (vy d) (vz d) (gType g) in
    let m := add_local q m (h0, vx f) in
    let m := add_local q (add_local q m (h1, neg3 (vx f))) (h1, vy f) in
    let m := add_local q (add_local q m (h2, neg3 (vy f))) (h2, vz f) in
    Ok (add_local q m (h3, neg3 (vz f))).
  (** DihedralPotentialImpl::computeForces, DihedralPotentialImpl.h:372-421. *)
  Definition dihedral_forces (k : nat) (gs : list ggroup) (q : xproc) : outcome xproc := let? m := foldM (dihedral_force q) (xpMem q) (kind_groups k gs) in Ok (with_mem q m).
  (** localEnergy of DihedralPotentialImpl::computeEnergy, DihedralPotentialImpl.h:433-482. *)
  Definition dihedral_energy (k : nat) (gs : list ggroup) (q : xproc) : outcome R :=
    foldM (fun e g => let? h0 := gptr g 0 in let? h1 := gptr g 1 in let? h2 := gptr g 2 in let? h3 := gptr g 3 in
      let d := dihedral_drs (xpMem q) h0 h1 h2 h3 in
      let fraction := ((localInt q h0 + localInt q h1 + localInt q h2 + localInt q h3) * (1 / 4))%R in
      Ok (e + fraction * de (vx d) (vy d) (vz d) (gType g))%R) 0%R (kind_groups k gs).
  (** Element (i, j) of localStress before the division by the volume, DihedralPotentialImpl::computeStress, DihedralPotentialImpl.h:492-551; line 529 gives dr2 twice to
      force. *)
  Definition dihedral_stress (i j : nat) (k : nat) (gs : list ggroup) (q : xproc) : outcome R :=
    foldM (fun e g => let? h0 := gptr g 0 in let? h1 := gptr g 1 in let? h2 := gptr g 2 in let? h3 := gptr g 3 in
      let d := dihedral_drs (xpMem q) h0 h1 h2 h3 in
      let f := df (vx d) (vy d) (vy d) (gType g) in
      let factor := (- (1 / 4) * (localInt q h0 + localInt q h1 + localInt q h2 + localInt q h3))%R in
      Ok (e + vget (vx f) i * vget (vscale factor (vx d)) j + vget (vy f) i * vget (vscale factor (vy d)) j + vget (vz f) i * vget (vscale factor (vz d)) j)%R) 0%R (kind_groups k gs).

  (** ** External potential *)
  (** energy and getForce of the interaction. *)
  Variables (xe : vec3 R -> Z -> R) (xf : vec3 R -> Z -> vec3 R).
  (** ExternalPotentialImpl::computeForces(false, true), ExternalPotentialImpl.h:368-391. *)
  Definition external_energy (q : xproc) : R := fold_left (fun e h => e + xe (xPos (xpMem q h)) (xType (xpMem q h)))%R (xpLocals q) 0%R.
  (** ExternalPotentialImpl::computeForces(true, false), ExternalPotentialImpl.h:368-391. *)
  Definition external_forces (q : xproc) : xproc := with_mem q (fold_left (fun m h => add_force m (h, xf (xPos (m h)) (xType (m h)))) (xpLocals q) (xpMem q)).

  (** ** All together *)
  (** pairPotential().energy() etc. on the master: sum over all processors, Potential.cpp:118-136, 141-158. *)
  Definition reduce_groups (f : list ggroup -> xproc -> outcome R) (gs : list (list ggroup)) (sys : list xproc) : outcome R :=
    let? l := mapO (fun c => f c.1 c.2) (zip gs sys) in Ok (fold_right Rplus 0%R l).
  (** cutoffSq and forceOverR of the pair interaction; kinds of the three storages. *)
  Variables (cut2 : Z -> Z -> R) (fo : R -> Z -> Z -> R) (kB kA kD : nat).
  (** computeForces of all potentials on one processor, Simulation.cpp:1553-1574. *)
  Definition proc_forces (rev : bool) (p : dplist) (gs : list ggroup) (q : xproc) : outcome xproc :=
    let? q := computeForcesList cut2 fo rev p (zero_forces rev q) in
    let? q := bond_forces kB gs q in
    let? q := angle_forces kA gs q in
    let? q := dihedral_forces kD gs q in
    Ok (external_forces q).
  (** Simulation::computeForces, Simulation.cpp:1551-1580, on all processors. *)
  Definition computeForces (rev : bool) (lists : list dplist) (gs : list (list ggroup)) (sys : list xproc) : outcome (list xproc) :=
    let? sys := mapO (fun c => proc_forces rev c.1.1 c.1.2 c.2) (zip (zip lists gs) sys) in
    if rev then reverseUpdate sys else Ok sys.
End groups.
