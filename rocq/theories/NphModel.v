(** Model of McMd::NphIntegrator (constant pressure and enthalpy) and of the Monte Carlo moves that run molecular dynamics:
    HybridMdMove, HybridNphMdMove, MdMove and DpdMove, over real numbers.  Systems, forces and pair lists are those of MdModel
    and EnergyModel; the box is orthorhombic.  Energies and stresses kept between signals are left out: every value is computed
    afresh.  The numbers drawn from Random are arguments. *)
From Verif Require Import Base Vec3 BoxSpec OrthoModel MonoModel McCellModel DomainModel SpeciesModel CellListModel PairListModel EnergyModel MoveModel MdModel ThermoModel.
From Coq Require Import Reals.
Local Open Scope R_scope.

(** ** NphIntegrator *)
(** pow(v, 1.0/3.0), NphIntegrator.cpp:201 and 205.  A volume that is not positive leads to NaN or to a division by zero, which
    counts as UB here. *)
Definition cbrt (v : R) : outcome R := if Rlt_dec 0 v then Ok (Rpower v (1 / 3)) else UB.

(** The box, eta_, currP_ and the atoms.  src/mcMd/mdIntegrators/NphIntegrator.h:122-140 and MdSystem. *)
Record nphs (X : Type) := Np { hB : ortho;  hEta : vec3 R;  hP : vec3 R;  hS : mds X }.
Arguments Np {X} _ _ _ _.
Arguments hB {X} _.
Arguments hEta {X} _.
Arguments hP {X} _.
Arguments hS {X} _.

Section Nph.
  (** The atoms, their masses and dt_; mode_, W_ and boundaryEnsemble().pressure(). *)
  Variables (y : mdsys) (mode : lattice) (W extP : R).

  (** MdSystem::computeKineticStress<Vector>, MdSystem.cpp:1030-1053, with incrementPairStress, mcMd/simulation/stress.h:49-55. *)
  Definition kinetic_stress (b : ortho) (vel : nat -> vec3 R) : vec3 R :=
    let P i := fold_left (fun P a => P + vget (vel a) i * (yMass y (yTy y a) * vget (vel a) i)) (yAtoms y) 0 / oVol b in
    V3 (P 0%nat) (P 1%nat) (P 2%nat).

  (** eta_ advanced by half a step, NphIntegrator.cpp:158-170 and 290-302.  Other lattice systems leave eta_ alone. *)
  Definition nph_eta (volume : R) (l eta P : vec3 R) : vec3 R :=
    let Vdthalf := 1/2 * volume * yDt y in
    match mode with
    | Orthorhombic => V3 (vx eta + Vdthalf / vx l * (vx P - extP)) (vy eta + Vdthalf / vy l * (vy P - extP)) (vz eta + Vdthalf / vz l * (vz P - extP))
    | Tetragonal => V3 (vx eta + Vdthalf / vx l * (vx P - extP)) (vy eta + Vdthalf / vy l * (vy P + vz P - 2 * extP)) (vz eta)
    | Cubic => V3 (vx eta + 1/2 * yDt y * (1/3 * (vx P + vy P + vz P) - extP)) (vy eta) (vz eta)
    | _ => eta
    end.
  (** lengths and lengthsFinal, NphIntegrator.cpp:177-208.  For other lattice systems lengthsFinal is never set: UB. *)
  Definition nph_lengths (l eta : vec3 R) : outcome (vec3 R * vec3 R) :=
    let h := 1/2 * yDt y / W in
    match mode with
    | Orthorhombic =>
        let m := V3 (vx l + h * vx eta) (vy l + h * vy eta) (vz l + h * vz eta) in
        Ok (m, V3 (vx m + h * vx eta) (vy m + h * vy eta) (vz m + h * vz eta))
    | Tetragonal =>
        let m1 := vy l + 1/2 * h * vy eta in
        let m := V3 (vx l + h * vx eta) m1 m1 in
        let f1 := vy m + 1/2 * h * vy eta in
        Ok (m, V3 (vx m + h * vx eta) f1 f1)
    | Cubic =>
        let v := vx l * vy l * vz l + h * vx eta in
        let? m := cbrt v in
        let? f := cbrt (v + h * vx eta) in
        Ok (V3 m m m, V3 f f f)
    | _ => UB
    end.
  (** volumeFinal, NphIntegrator.cpp:190, 198 and 204. *)
  Definition nph_volume (l eta f : vec3 R) : R :=
    match mode with
    | Cubic => let h := 1/2 * yDt y / W in vx l * vy l * vz l + h * vx eta + h * vx eta
    | _ => vx f * vy f * vz f
    end.

  (** Multiplication of components: the statements dr[i] = vtmp[i]*dtLengthsFac2[i] and so on, NphIntegrator.cpp:234-242. *)
  Definition vmul (u v : vec3 R) : vec3 R := V3 (vx u * vx v) (vy u * vy v) (vz u * vz v).
  (** Division of components, NphIntegrator.cpp:246-248. *)
  Definition vdiv (u v : vec3 R) : vec3 R := V3 (vx u / vx v) (vy u / vy v) (vz u / vz v).
  (** lengthsFac, NphIntegrator.cpp:219-222. *)
  Definition nph_fac (l f : vec3 R) : vec3 R := vdiv f l.
  (** dtLengthsFac2, NphIntegrator.cpp:221. *)
  Definition nph_fac2 (l m : vec3 R) : vec3 R :=
    let c i := yDt y * vget l i * vget l i / vget m i / vget m i in V3 (c 0%nat) (c 1%nat) (c 2%nat).
  (** The first loop over atoms, NphIntegrator.cpp:224-253. *)
  Definition nph_integrate1 (fac fac2 : vec3 R) (F : nat -> vec3 R) (s : (nat -> vec3 R) * (nat -> vec3 R)) : (nat -> vec3 R) * (nat -> vec3 R) :=
    fold_left (fun (s : (nat -> vec3 R) * (nat -> vec3 R)) a => let (pos, vel) := s in
      let v := vadd (vel a) (vscale (prefactor y a) (F a)) in
      let r := vmul (vadd (pos a) (vmul v fac2)) fac in
      (move pos a r, move vel a (vdiv v fac))) (yAtoms y) s.

  Section Step.
    Context {X : Type}.
    (** The check of the pair list, the calculation of forces, and the virial stress (which also checks the pair list), each
        in a given box. *)
    Variable relist : ortho -> (nat -> vec3 R) -> X -> outcome ((nat -> vec3 R) * X).
    Variable calc : ortho -> (nat -> vec3 R) -> (nat -> vec3 R) -> X -> outcome ((nat -> vec3 R) * (nat -> vec3 R) * X).
    Variable virial : ortho -> (nat -> vec3 R) -> X -> outcome (vec3 R * (nat -> vec3 R) * X).

    (** MdSystem::computeStress<Vector>, MdSystem.cpp:1147-1155. *)
    Definition nph_stress (b : ortho) (pos vel : nat -> vec3 R) (x : X) : outcome (vec3 R * (nat -> vec3 R) * X) :=
      let? r := virial b pos x in
      let '(v, pos, x) := r in Ok (vadd v (kinetic_stress b vel), pos, x).
    (** NphIntegrator::step, NphIntegrator.cpp:101-323. *)
    Definition nph_step (s : nphs X) : outcome (nphs X) :=
      let b := hB s in let m := hS s in
      let? r := nph_stress b (mPos m) (mVel m) (mX m) in
      let '(P, pos, x) := r in
      let l := oLen b in
      let eta := nph_eta (vx l * vy l * vz l) l (hEta s) P in
      let? (h, f) := nph_lengths l eta in
      let vol := nph_volume l eta f in
      let b := setOrthorhombic b f in
      let (pos, vel) := nph_integrate1 (nph_fac l f) (nph_fac2 l h) (mFrc m) (pos, mVel m) in
      let? (pos, x) := relist b pos x in
      let? r := calc b pos (mFrc m) x in
      let '(pos, F, x) := r in
      let vel := integrate2 y F vel in
      let? r := nph_stress b pos vel x in
      let '(P, pos, x) := r in
      let eta := nph_eta vol f eta P in
      let? (pos, x) := relist b pos x in
      Ok (Np b eta P (Mds pos vel F x)).
    (** Several steps, MdSimulation.cpp:469-487 and mcMoves/common/HybridNphMdMove.cpp:168-170. *)
    Fixpoint nph_run (n : nat) (s : nphs X) : outcome (nphs X) :=
      match n with
      | O => Ok s
      | S n => let? s := nph_step s in nph_run n s
      end.
  End Step.

  (** NphIntegrator::barostatEnergy, NphIntegrator.cpp:328-339. *)
  Definition barostat_energy (eta : vec3 R) : R :=
    match mode with
    | Orthorhombic => (vx eta * vx eta + vy eta * vy eta + vz eta * vz eta) / 2 / W
    | Tetragonal => (vx eta * vx eta + vy eta * vy eta / 2) / 2 / W
    | Cubic => vx eta * vx eta / 2 / W
    | _ => 0
    end.
End Nph.

(** An MdSystem in a given box, MdSystem.h with System::boundary(). *)
Definition boxed (y : mdsys) (b : ortho) : mdsys :=
  MS (yM y) (ortho_bd b) (distanceSq_dr b) (yMask y) (yFr y) (yCutsq y) (yKinds y) (yExt y) (yAtoms y) (yTy y) (yMass y) (yDt y).
(** MdPairPotentialImpl::computeStressImpl<Vector>, MdPairPotentialImpl.h:401-436, for a system with no other potentials. *)
Definition pair_virial (y : mdsys) (b : ortho) (pos : nat -> vec3 R) (p : plist) : outcome (vec3 R * (nat -> vec3 R) * plist) :=
  let? (pos, p) := md_list (boxed y b) pos p in
  let? o := it_loop (S (Z.to_nat (pN2 p))) (pl_begin p) in
  match o with
  | None => UB
  | Some l =>
      let? v := foldM (fun v x => match x with
                       | (Some i, Some j) =>
                           let (rsq, d) := distanceSq_dr b (pos i) (pos j) in
                           if Rlt_dec rsq (yCutsq y (yTy y i) (yTy y j)) then
                             let f := vscale (yFr y rsq (yTy y i) (yTy y j)) d in
                             Ok (V3 (vx v + vx f * vx d) (vy v + vy f * vy d) (vz v + vz f * vz d))
                           else Ok v
                       | _ => UB
                       end) (V3 0 0 0) l in
      Ok (vscale (/ oVol b) v, pos, p)
  end.
(** Steps of the NphIntegrator for such a system, NphIntegrator.cpp:101-323. *)
Definition md_nph_run (y : mdsys) (mode : lattice) (W extP : R) (n : nat) (s : nphs plist) : outcome (nphs plist) :=
  nph_run y mode W extP (fun b => md_list (boxed y b)) (fun b => md_calc (boxed y b)) (pair_virial y) n s.

(** ** Velocities and barostat momenta drawn at random *)
(** MdSystem::setBoltzmannVelocities, MdSystem.cpp:797-820; [g] are the numbers that Random::gaussian() returns. *)
Definition boltzmann_velocities (y : mdsys) (temp : R) (g : nat -> R) (vel : nat -> vec3 R) : (nat -> vec3 R) * nat :=
  fold_left (fun (s : (nat -> vec3 R) * nat) a => let (vel, k) := s in
    let scale := sqrt (temp / yMass y (yTy y a)) in
    (move vel a (V3 (scale * g k) (scale * g (k + 1)%nat) (scale * g (k + 2)%nat)), (k + 3)%nat)) (yAtoms y) (vel, 0%nat).
(** setEta in HybridNphMdMove::move, HybridNphMdMove.cpp:140-159. *)
Definition draw_eta (mode : lattice) (W temp : R) (g : nat -> R) (eta : vec3 R) : vec3 R :=
  match mode with
  | Cubic => V3 (sqrt (temp / W) * g 0%nat) (vy eta) (vz eta)
  | Tetragonal => V3 (sqrt (temp / W) * g 0%nat) (sqrt (temp / W / 2) * g 1%nat) (vz eta)
  | Orthorhombic => V3 (sqrt (temp / W) * g 0%nat) (sqrt (temp / W) * g 1%nat) (sqrt (temp / W) * g 2%nat)
  | _ => eta
  end.

(** ** Hybrid moves *)
Section Hybrid.
  (** The MdSystem; energies of pairs and of groups, and of the external potential; beta. *)
  Variables (y : mdsys) (u : R -> Z -> Z -> R) (ext : option (vec3 R -> Z -> R)) (beta : R).

  (** MdSystem::potentialEnergy, MdSystem.cpp:910-958, with MdPairPotentialImpl::computeEnergy, MdPairPotentialImpl.h:370-395;
      also the positions and the pair list afterwards. *)
  Definition md_potential (s : mds plist) : outcome (R * mds plist) :=
    let? (pos, p) := md_list y (mPos s) (mX s) in
    let? o := md_pair_energy (bDist (yB y)) u (S (Z.to_nat (pN2 p))) p pos (yTy y) in
    match o with
    | None => UB
    | Some e =>
        let c := MC pos (yTy y) (cl_new 0) in
        let e := fold_left (fun e k => e + kind_total c (fK k)) (yKinds y) e in
        Ok (e + ext_total ext (yAtoms y) c, Mds pos (mVel s) (mFrc s) p)
    end.
  (** HybridMdMove::move with a NveVvIntegrator, HybridMdMove.cpp:80-153.  [F] are the old forces, [g] and [r] the numbers drawn
      for the velocities and by metropolis, [n] is nStep_; [cut] is maxPairCutoff of the McPairPotential. *)
  Definition hybrid_move (cut : R) (n : nat) (g : nat -> R) (r temp : R) (vel F : nat -> vec3 R) (s : mcs) (p : plist)
      : outcome (R * mcs * plist * bool) :=
    let old := sPos s in
    let vel := (boltzmann_velocities y temp g vel).1 in
    let? m := md_start y (sPos s) vel F p in
    let? (e0, m) := md_potential m in
    let e0 := e0 + kinetic y (mVel m) in
    let? m := nve_run y n m in
    let? (e1, m) := md_potential m in
    let e1 := e1 + kinetic y (mVel m) in
    let dE := e1 - e0 in
    if metropolis (boltzmann beta dE) r then
      let? s := mc_build (yM y) (bGen (yB y)) (bWrap (yB y)) (bLens (yB y)) cut (yAtoms y) (MC (mPos m) (sTy s) (sCells s)) in
      Ok (dE, s, mX m, true)
    else Ok (dE, MC (fold_left (fun p a => move p a (old a)) (yAtoms y) (mPos m)) (sTy s) (sCells s), mX m, false).
End Hybrid.

(** The end of HybridNphMdMove::move after a rejection, HybridNphMdMove.cpp:196-208: the box and the positions. *)
Definition nph_reject (y : mdsys) (lens : vec3 R) (old : nat -> vec3 R) (b : ortho) (pos : nat -> vec3 R) : ortho * (nat -> vec3 R) :=
  (setOrthorhombic b lens, fold_left (fun p a => move p a (old a)) (yAtoms y) pos).

(** ** Integrators that have not been set up *)
(** The elements of prefactors_, None for one that has never been assigned.  src/mcMd/mdIntegrators/NveVvIntegrator.h. *)
Definition table := list (option R).
(** NveVvIntegrator::readParameters, NveVvIntegrator.cpp:41-46: allocated, not assigned. *)
Definition nve_read (nType : nat) : table := repeat None nType.
(** NveVvIntegrator::setup, NveVvIntegrator.cpp:71-81. *)
Definition nve_setup (mass : Z -> R) (dt : R) (t : table) : table := imap (fun i _ => Some (1/2 * dt / mass (Z.of_nat i))) t.
(** prefactors_[typeId]; an element that was never assigned has an indeterminate value: UB.  NveVvIntegrator.cpp:115. *)
Definition table_get (t : table) (i : Z) : outcome R := let? o := zget t i in match o with Some c => Ok c | None => UB end.

Section MdMove.
  Variable y : mdsys.
  (** The loops over atoms of NveVvIntegrator::step, NveVvIntegrator.cpp:107-147 and 157-182, with the table. *)
  Definition table_integrate1 (t : table) (F : nat -> vec3 R) (s : (nat -> vec3 R) * (nat -> vec3 R)) : outcome ((nat -> vec3 R) * (nat -> vec3 R)) :=
    foldM (fun (s : (nat -> vec3 R) * (nat -> vec3 R)) a => let (pos, vel) := s in
      let? c := table_get t (yTy y a) in
      let v := vadd (vel a) (vscale c (F a)) in
      Ok (move pos a (vadd (pos a) (vscale (yDt y) v)), move vel a v)) s (yAtoms y).
  (** The second loop, NveVvIntegrator.cpp:157-182. *)
  Definition table_integrate2 (t : table) (F vel : nat -> vec3 R) : outcome (nat -> vec3 R) :=
    foldM (fun vel a => let? c := table_get t (yTy y a) in Ok (move vel a (vadd (vel a) (vscale c (F a))))) vel (yAtoms y).
  (** NveVvIntegrator::step, NveVvIntegrator.cpp:97-185. *)
  Definition table_step (t : table) (s : mds plist) : outcome (mds plist) :=
    let? (pos, vel) := table_integrate1 t (mFrc s) (mPos s, mVel s) in
    let? r := nve_calc y pos (mFrc s) (mX s) in
    let '(pos, F, x) := r in
    let? vel := table_integrate2 t F vel in
    Ok (Mds pos vel F x).
  (** The loop over steps, MdMove.cpp:89-91 and HybridMdMove.cpp:114-116. *)
  Fixpoint table_run (t : table) (n : nat) (s : mds plist) : outcome (mds plist) :=
    match n with
    | O => Ok s
    | S n => let? s := table_step t s in table_run t n s
    end.
  (** What McSimulation::simulate does with the moves before its main loop, McSimulation.cpp:504-516: it sets up the analyzers,
      but calls neither McMoveManager::setup nor McMove::setup, so that the integrator of a move stays as it is. *)
  Definition simulate_begin (t : table) : table := t.
  (** MdMove::move, MdMove.cpp:77-101, up to the end of the loop over steps: the integrator is not set up. *)
  Definition md_move (t : table) (n : nat) (g : nat -> R) (temp : R) (pos vel F : nat -> vec3 R) (p : plist) : outcome (mds plist) :=
    let? m := md_start y pos (boltzmann_velocities y temp g vel).1 F p in
    table_run t n m.
  (** The same part of HybridMdMove::move, HybridMdMove.cpp:101-116: setup() is called for every move. *)
  Definition hybrid_md (t : table) (n : nat) (g : nat -> R) (temp : R) (pos vel F : nat -> vec3 R) (p : plist) : outcome (mds plist) :=
    let? m := md_start y pos (boltzmann_velocities y temp g vel).1 F p in
    table_run (nve_setup (yMass y) (yDt y) t) n m.
End MdMove.
