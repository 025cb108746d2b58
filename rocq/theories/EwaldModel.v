(** Model of Simp::EwaldInteraction, McMd::MdEwaldPotential and the short-range sums of McMd::MdEwaldPairPotentialImpl, over
    real numbers.  Atoms are their ids, the boundary enters as the members and functions these classes use.  Left out: the
    parameter file, archives, the particle-mesh class MdSpmePotential. *)
From Coq Require Import Reals.
From Coquelicot Require Import Coquelicot.
From Verif Require Import Base Vec3 BoxSpec OrthoModel MonoModel SpeciesModel PairListModel EnergyModel.
From Coq Require Import Reals.
Local Open Scope R_scope.

(** erfc of the C library (ISO C, math.h). *)
Definition erfc (x : R) : R := 1 - 2 / sqrt PI * RInt (fun t => exp (- (t * t))) 0 x.

(** simp/interaction/coulomb/EwaldInteraction.h:176-190: the parameters and the derived constants. *)
Record ewald := Ew { eEps : R;  eAlpha : R;  eRc : R;  eRcSq : R;  eCe : R;  eCf : R;  eCg : R }.
(** setDerivedConstants, EwaldInteraction.cpp:137-144. *)
Definition ew_derive (e : ewald) : ewald :=
  Ew (eEps e) (eAlpha e) (eRc e) (eRc e * eRc e) (1 / (4 * PI * eEps e)) (2 * eAlpha e / sqrt PI) (- (1/4) / (eAlpha e * eAlpha e)).
(** readParameters and loadParameters, EwaldInteraction.cpp:66-73 and 78-86. *)
Definition ew_read (eps alpha rc : R) : ewald := ew_derive (Ew eps alpha rc 0 0 0 0).
(** The names EwaldInteraction::set knows, EwaldInteraction.cpp:103-111. *)
Inductive ew_name := NEps | NAlpha | NRc.
(** EwaldInteraction::set, EwaldInteraction.cpp:101-115. *)
Definition ew_set (e : ewald) (n : ew_name) (v : R) : ewald :=
  ew_derive (match n with
             | NEps => Ew v (eAlpha e) (eRc e) (eRcSq e) (eCe e) (eCf e) (eCg e)
             | NAlpha => Ew (eEps e) v (eRc e) (eRcSq e) (eCe e) (eCf e) (eCg e)
             | NRc => Ew (eEps e) (eAlpha e) v (eRcSq e) (eCe e) (eCf e) (eCg e)
             end).
(** EwaldInteraction.h:235-240. *)
Definition rSpaceEnergy (e : ewald) (rsq qq : R) : R :=
  let r := sqrt rsq in eCe e * qq * erfc (eAlpha e * r) / r.
(** EwaldInteraction.h:246-252. *)
Definition rSpaceForceOverR (e : ewald) (rsq qq : R) : R :=
  let r := sqrt rsq in let x := eAlpha e * r in
  eCe e * qq * (erfc x + eCf e * r * exp (- x * x)) / (r * rsq).
(** EwaldInteraction.h:258-259. *)
Definition kSpacePotential (e : ewald) (ksq : R) : R := exp (eCg e * ksq) / (ksq * eEps e).

(** The part of a Boundary that MdEwaldPotential uses: bravaisBasisVector, reciprocalBasisVector, volume and
    transformCartToGen.  simp/boundary/OrthorhombicBoundary.h and MonoclinicBoundary.h. *)
Record kbox := KB { kBrav : vec3 (vec3 R);  kRecip : vec3 (vec3 R);  kVol : R;  kGen : vec3 R -> vec3 R }.
(** simp/boundary/OrthorhombicBoundary.h. *)
Definition ortho_kb (b : ortho) : kbox := KB (oBrav b) (oRecip b) (oVol b) (cartToGen b).
(** simp/boundary/MonoclinicBoundary.h. *)
Definition mono_kb (b : mono) : kbox := KB (mBrav b) (mRecip b) (mVol b) (mono_cartToGen b).

(** ceil of the C library on numbers that fit into an int, used in MdEwaldPotential.cpp:147-149. *)
Definition zceil (x : R) : Z := (- Int_part (- x))%Z.

(** MdEwaldPotential.h:133-170: intWaves_, ksq_, g_, and the ranges of the indices, with base0_ = 0. *)
Record waves := Wv { wInt : list (vec3 Z);  wKsq : list R;  wG : list R;  wU0 : Z;  wB1 : Z;  wU1 : Z;  wB2 : Z;  wU2 : Z }.

Section Waves.
  Variables (e : ewald) (kb : kbox) (kc : R).

  (** maxK[j], MdEwaldPotential.cpp:142-143. *)
  Definition maxK (j : nat) : Z := zceil (kc * sqrt (normSq (vget (kBrav kb) j)) / (2 * PI)).
  (** Body of the innermost loop, MdEwaldPotential.cpp:196-210. *)
  Definition wave_body (k : vec3 Z) (q : vec3 R) (w : waves) : waves :=
    let ksq := normSq q in
    if Rle_dec ksq (kc * kc) then
      Wv (wInt w ++ [k]) (wKsq w ++ [ksq]) (wG w ++ [kSpacePotential e ksq])
         (Z.max (wU0 w) (vx k)) (Z.min (wB1 w) (vy k)) (Z.max (wU1 w) (vy k)) (Z.min (wB2 w) (vz k)) (Z.max (wU2 w) (vz k))
    else w.
  (** for (k = lo; k <= hi; ++k) { q += b; ... }, where q starts as (lo - 1)*b + q0.  MdEwaldPotential.cpp:177-213. *)
  Definition wave_loop (b q0 : vec3 R) (lo hi : Z) (body : Z -> vec3 R -> waves -> waves) (w : waves) : waves :=
    (fold_left (fun (s : vec3 R * waves) k => let q := vadd s.1 b in (q, body k q s.2))
       (seqZ lo (hi - lo + 1)) (vadd (vscale (IZR (lo - 1)) b) q0, w)).2.
  (** MdEwaldPotential.cpp:189-211. *)
  Definition loop_2 (k0 k1 : Z) (q1 : vec3 R) (w : waves) : waves :=
    wave_loop (vz (kRecip kb)) q1 (if decide (k0 = 0%Z /\ k1 = 0%Z) then 1 else - maxK 2) (maxK 2)
      (fun k2 q => wave_body (V3 k0 k1 k2) q) w.
  (** MdEwaldPotential.cpp:183-212. *)
  Definition loop_1 (k0 : Z) (q0 : vec3 R) (w : waves) : waves :=
    wave_loop (vy (kRecip kb)) q0 (if decide (k0 = 0%Z) then 0 else - maxK 1) (maxK 1) (fun k1 q => loop_2 k0 k1 q) w.
  (** MdEwaldPotential.cpp:177-213; there q0 starts as -b0. *)
  Definition loop_0 (w : waves) : waves := wave_loop (vx (kRecip kb)) vzero 0 (maxK 0) loop_1 w.
  (** MdEwaldPotential::makeWaves, MdEwaldPotential.cpp:125-228.  The arrays grow as needed (GArray, util, documented). *)
  Definition makeWaves : outcome waves :=
    let? _ := check (bool_decide (0 < maxK 0)%Z) in
    let? _ := check (bool_decide (0 < maxK 1)%Z) in
    let? _ := check (bool_decide (0 < maxK 2)%Z) in
    let w := loop_0 (Wv [] [] [] (- maxK 0) (maxK 1) (- maxK 1) (maxK 2) (- maxK 2)) in
    let? _ := check (bool_decide (0 < length (wInt w))%nat) in
    let? _ := check (bool_decide (0 < wU0 w - 0 + 1)%Z) in
    let? _ := check (bool_decide (0 < wU1 w - wB1 w + 1)%Z) in
    let? _ := check (bool_decide (0 < wU2 w - wB2 w + 1)%Z) in
    Ok w.
End Waves.

(** exp of 2*pi*I*x (std::complex, documented). *)
Definition cis (x : R) : Complex.C := (cos (2 * PI * x), sin (2 * PI * x)).
(** fexp[0], fexp[1] = fexp[0]*de, ..., MdEwaldPotential.cpp:330-346. *)
Fixpoint fexp (c de : Complex.C) (n : nat) : list Complex.C :=
  match n with O => [] | S n => c :: fexp (Cmult c de) de n end.
(** A table with [n] entries that starts at the index [base], MdEwaldPotential.cpp:330-346. *)
Definition ftable (x : R) (base n : Z) : list Complex.C := fexp (cis (x * IZR base)) (cis x) (Z.to_nat n).

(** A 3 x 3 tensor (util/space/Tensor.h, documented), by rows. *)
Definition tensor := vec3 (vec3 R).
(** util/space/Tensor.h, documented. *)
Definition tzero : tensor := V3 vzero vzero vzero.
(** util/space/Tensor.h, documented. *)
Definition tident : tensor := V3 (V3 1 0 0) (V3 0 1 0) (V3 0 0 1).
(** util/space/Tensor.h, documented. *)
Definition tadd (s t : tensor) : tensor := V3 (vadd (vx s) (vx t)) (vadd (vy s) (vy t)) (vadd (vz s) (vz t)).
(** util/space/Tensor.h, documented. *)
Definition tscale (c : R) (t : tensor) : tensor := vmap (vscale c) t.
(** dyad(u, v)(i, j) = u[i]*v[j] (util/space/Tensor.h, documented). *)
Definition dyad (u v : vec3 R) : tensor := vmap (fun c => vscale c v) u.

Section KSpace.
  (** The interaction, the box, the atoms in the order of the loops over species, molecules and atoms, and their charges. *)
  Variables (e : ewald) (kb : kbox) (atoms : list nat) (charge : nat -> R).

  (** The loop over atoms and waves of computeKSpaceCharge, MdEwaldPotential.cpp:253-282. *)
  Definition kcharge (w : waves) (pos : nat -> vec3 R) : list Complex.C :=
    fold_left (fun rho a =>
      let rg := kGen kb (pos a) in
      zip_with (fun (q : vec3 Z) (r : Complex.C) =>
        let dotqr := vdot rg (vmap IZR q) * (2 * PI) in
        Cplus r (charge a * cos dotqr, charge a * sin dotqr)) (wInt w) rho)
      atoms (replicate (length (wInt w)) (RtoC 0)).

  (** The loop over waves of addForces, MdEwaldPotential.cpp:349-360. *)
  Definition kforce_gen (w : waves) (rho : list Complex.C) (rg : vec3 R) : outcome (vec3 R) :=
    let t0 := ftable (vx rg) 0 (wU0 w - 0 + 1) in
    let t1 := ftable (vy rg) (wB1 w) (wU1 w - wB1 w + 1) in
    let t2 := ftable (vz rg) (wB2 w) (wU2 w - wB2 w + 1) in
    foldM (fun fg i =>
      let? q := aget (wInt w) i in let? g := aget (wG w) i in let? r := aget rho i in
      let? x0 := zget t0 (vx q - 0) in let? x1 := zget t1 (vy q - wB1 w) in let? x2 := zget t2 (vz q - wB2 w) in
      let ef := Cmult (Cmult x0 x1) x2 in
      Ok (vadd fg (vscale (g * (fst ef * snd r - snd ef * fst r)) (vmap IZR q)))) vzero (seq 0 (length (wInt w))).
  (** MdEwaldPotential.cpp:361-367: the force, in Cartesian coordinates. *)
  Definition kforce (w : waves) (rho : list Complex.C) (p : vec3 R) (c : R) : outcome (vec3 R) :=
    let? fg := kforce_gen w rho (kGen kb p) in
    Ok (combo (kRecip kb) (vscale (- 2 * c / kVol kb) fg)).
  (** The loop over atoms of addForces, MdEwaldPotential.cpp:319-373; EPS is 1.0E-10. *)
  Definition addForces (w : waves) (pos : nat -> vec3 R) (F : nat -> vec3 R) : outcome (nat -> vec3 R) :=
    let rho := kcharge w pos in
    foldM (fun F a => if Rlt_dec (/ 10 ^ 10) (Rabs (charge a)) then
        let? f := kforce w rho (pos a) (charge a) in Ok (PairListModel.move F a (vadd (F a) f))
      else Ok F) F atoms.

  (** computeEnergy, MdEwaldPotential.cpp:378-422. *)
  Definition computeEnergy (w : waves) (pos : nat -> vec3 R) : outcome R :=
    let rho := kcharge w pos in
    let? en := foldM (fun en i => let? r := aget rho i in let? g := aget (wG w) i in
      Ok (en + (fst r * fst r + snd r * snd r) * g)) 0 (seq 0 (length (wInt w))) in
    let self := fold_left (fun s a => s + charge a * charge a) atoms 0 in
    Ok (en / kVol kb - self * (eAlpha e / (4 * sqrt PI * PI * eEps e))).

  (** computeStress, MdEwaldPotential.cpp:428-469. *)
  Definition computeStress (w : waves) (pos : nat -> vec3 R) : outcome tensor :=
    let rho := kcharge w pos in
    let ca := (1/4) / (eAlpha e * eAlpha e) in
    let? s := foldM (fun s i =>
      let? q := aget (wInt w) i in let? r := aget rho i in let? g := aget (wG w) i in let? ksq := aget (wKsq w) i in
      let qv := vadd (vadd (vscale (IZR (vx q)) (vx (kRecip kb))) (vscale (IZR (vy q)) (vy (kRecip kb)))) (vscale (IZR (vz q)) (vz (kRecip kb))) in
      let K := tscale (- 2 * (ca + 1 / ksq)) (dyad qv qv) in
      let K := tadd tident K in
      let K := tscale (g * (fst r * fst r + snd r * snd r)) K in
      Ok (tadd s K)) tzero (seq 0 (length (wInt w))) in
    Ok (tscale (/ (kVol kb * kVol kb)) s).
End KSpace.
