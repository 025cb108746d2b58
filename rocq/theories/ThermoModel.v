(** Model of the thermostatted integrators over real numbers: NvtNhIntegrator and NvtIntegrator (Nose-Hoover), NvtDpdVvIntegrator
    (dissipative particle dynamics) and the two NvtLangevinIntegrators, and of the archives of all integrators.  Systems and
    forces are those of MdModel.  The temperature of the EnergyEnsemble is constant; signals are left out.  The numbers drawn
    from Random are a sequence that the theorems quantify over. *)
From Verif Require Import Base Vec3 BoxSpec OrthoModel MonoModel McCellModel DomainModel SpeciesModel CellListModel PairListModel EnergyModel MdModel.
From Coq Require Import Reals.
Local Open Scope R_scope.

Section Thermo.
  Variable y : mdsys.

  (** MdSystem::kineticEnergy, MdSystem.cpp:1003-1023, and the sum over processors of ddMd Simulation::computeKineticEnergy,
      ddMd/simulation/Simulation.cpp:1621-1652. *)
  Definition kinetic (vel : nat -> vec3 R) : R :=
    1/2 * fold_left (fun KE a => KE + dot (vel a) (vel a) * yMass y (yTy y a)) (yAtoms y) 0.

  (** ** Nose-Hoover *)
  Section NoseHoover.
    (** nuT_ and T_target_. *)
    Variables (nuT Tt : R).

    (** xiDot_ from T_kinetic_, NvtNhIntegrator.cpp:115-117 and 207-208, ddMd NvtIntegrator.cpp:146-150 and 205-207. *)
    Definition nh_xidot (vel : nat -> vec3 R) : R :=
      (kinetic vel * 2 / INR (3 * length (yAtoms y)) / Tt - 1) * nuT * nuT.
    (** Atoms, xi_ and xiDot_.  src/mcMd/mdIntegrators/NvtNhIntegrator.h:92-110. *)
    Record nhs (X : Type) := Nh { nS : mds X;  nXi : R;  nXd : R }.
    Arguments Nh {X} _ _ _.
    Arguments nS {X} _.
    Arguments nXi {X} _.
    Arguments nXd {X} _.
    (** NvtNhIntegrator::setup, NvtNhIntegrator.cpp:109-127. *)
    Definition nh_setup {X} (s : mds X) : nhs X := Nh s 0 (nh_xidot (mVel s)).
    (** ddMd NvtIntegrator::setup, NvtIntegrator.cpp:115-156: xi_ is kept; it is set to 0 only by initDynamicalState,
        NvtIntegrator.cpp:108-109. *)
    Definition dd_nh_setup {X} (s : mds X) (xi : R) : nhs X := Nh s xi (nh_xidot (mVel s)).
    (** factor, NvtNhIntegrator.cpp:152, ddMd NvtIntegrator.cpp:169 and 193. *)
    Definition nh_factor (xi xd : R) : R := exp (- (1/2 * yDt y) * (xi + xd * (1/2 * yDt y))).
    (** The first loop over atoms, NvtNhIntegrator.cpp:154-176, and ddMd NvtIntegrator.cpp:171-180. *)
    Definition nh_integrate1 (factor : R) (F : nat -> vec3 R) (s : (nat -> vec3 R) * (nat -> vec3 R)) : (nat -> vec3 R) * (nat -> vec3 R) :=
      fold_left (fun (s : (nat -> vec3 R) * (nat -> vec3 R)) a => let (pos, vel) := s in
        let v := vscale factor (vel a) in
        let v := vadd v (vscale (prefactor y a) (F a)) in
        (move pos a (vadd (pos a) (vscale (yDt y) v)), move vel a v)) (yAtoms y) s.
    (** The second loop over atoms, NvtNhIntegrator.cpp:192-203, and ddMd NvtIntegrator.cpp:195-202. *)
    Definition nh_integrate2 (factor : R) (F vel : nat -> vec3 R) : nat -> vec3 R :=
      fold_left (fun vel a => move vel a (vscale factor (vadd (vel a) (vscale (prefactor y a) (F a))))) (yAtoms y) vel.
    (** NvtNhIntegrator::step, NvtNhIntegrator.cpp:136-211, with any way [calc] of computing forces. *)
    Definition nh_step {X} (calc : (nat -> vec3 R) -> (nat -> vec3 R) -> X -> outcome ((nat -> vec3 R) * (nat -> vec3 R) * X))
        (s : nhs X) : outcome (nhs X) :=
      let factor := nh_factor (nXi s) (nXd s) in
      let (pos, vel) := nh_integrate1 factor (mFrc (nS s)) (mPos (nS s), mVel (nS s)) in
      let xi := nXi s + nXd s * (1/2 * yDt y) in
      let? r := calc pos (mFrc (nS s)) (mX (nS s)) in
      let '(pos, F, x) := r in
      let vel := nh_integrate2 factor F vel in
      let xd := nh_xidot vel in
      Ok (Nh (Mds pos vel F x) (xi + xd * (1/2 * yDt y)) xd).
    (** ddMd NvtIntegrator: integrateStep1 and integrateStep2, NvtIntegrator.cpp:158-214, with the calculation of forces that
        TwoStepIntegrator::run does between them.  The second part computes factor again. *)
    Definition dd_nh_step {X} (calc : (nat -> vec3 R) -> (nat -> vec3 R) -> X -> outcome ((nat -> vec3 R) * (nat -> vec3 R) * X))
        (s : nhs X) : outcome (nhs X) :=
      let (pos, vel) := nh_integrate1 (nh_factor (nXi s) (nXd s)) (mFrc (nS s)) (mPos (nS s), mVel (nS s)) in
      let? r := calc pos (mFrc (nS s)) (mX (nS s)) in
      let '(pos, F, x) := r in
      let vel := nh_integrate2 (nh_factor (nXi s) (nXd s)) F vel in
      let xi := nXi s + nXd s * (1/2 * yDt y) in
      let xd := nh_xidot vel in
      let xi := xi + xd * (1/2 * yDt y) in
      Ok (Nh (Mds pos vel F x) xi xd).
    (** Several steps, MdSimulation.cpp:469-487. *)
    Fixpoint nh_run {X} (calc : (nat -> vec3 R) -> (nat -> vec3 R) -> X -> outcome ((nat -> vec3 R) * (nat -> vec3 R) * X))
        (n : nat) (s : nhs X) : outcome (nhs X) :=
      match n with
      | O => Ok s
      | S n => let? s := nh_step calc s in nh_run calc n s
      end.
  End NoseHoover.

  (** ** Dissipative particle dynamics *)
  Section Dpd.
    (** MCMD_DPD_TYPE (0 in the source, NvtDpdVvIntegrator.cpp:21), cutoff_, gamma_ and the temperature. *)
    Variables (kind : nat) (cutoff gamma temp : R).
    (** The numbers that Random::gaussian() will return. *)
    Variable gauss : nat -> R.

    (** sigma_, NvtDpdVvIntegrator.cpp:158. *)
    Definition dpd_sigma : R := sqrt (2 * gamma * temp / yDt y).
    (** wr, NvtDpdVvIntegrator.cpp:211-219. *)
    Definition dpd_wr (r rsq : R) : R :=
      match kind with
      | O => 1
      | S O => 1 - r / cutoff
      | _ => 1 - rsq / (cutoff * cutoff)
      end.
    (** dissipativeForces_, randomForces_ and how many numbers have been drawn.  NvtDpdVvIntegrator.h:93-96. *)
    Record dpdf := Df { dFD : nat -> vec3 R;  dFR : nat -> vec3 R;  dK : nat }.
    (** The body of the loop over pairs, NvtDpdVvIntegrator.cpp:203-236.  e /= r with r = 0 makes NaNs, which count as UB here. *)
    Definition dpd_pair (rand : bool) (pos vel : nat -> vec3 R) (f : dpdf) (i j : nat) : outcome dpdf :=
      let (rsq, d) := yDr y (pos i) (pos j) in
      if Rlt_dec rsq (cutoff * cutoff) then
        let r := sqrt rsq in
        if Req_EM_T r 0 then UB else
        let e := vscale (/ r) d in
        let wr := dpd_wr r rsq in
        let f := if rand then
                   let fr := dpd_sigma * wr * gauss (dK f) in
                   Df (dFD f) (scatter (dFR f) i j (vscale fr e)) (S (dK f))
                 else f in
        let fd := - gamma * wr * wr * dot (vsub (vel i) (vel j)) e in
        Ok (Df (scatter (dFD f) i j (vscale fd e)) (dFR f) (dK f))
      else Ok f.
    (** computeDpdForces, NvtDpdVvIntegrator.cpp:177-242. *)
    Definition dpd_forces (rand : bool) (p : plist) (pos vel : nat -> vec3 R) (f : dpdf) : outcome dpdf :=
      let f := Df (fun _ => V3 0 0 0) (if rand then (fun _ => V3 0 0 0) else dFR f) (dK f) in
      let? o := it_loop (S (Z.to_nat (pN2 p))) (pl_begin p) in
      match o with
      | None => UB
      | Some l => foldM (fun f x => match x with
                                    | (Some i, Some j) => dpd_pair rand pos vel f i j
                                    | _ => UB
                                    end) f l
      end.
    (** The state of the system and of the integrator.  src/mcMd/mdIntegrators/NvtDpdVvIntegrator.h. *)
    Record dpds := Dp { dM : mds plist;  dF : dpdf }.
    (** NvtDpdVvIntegrator::setup, NvtDpdVvIntegrator.cpp:143-168. *)
    Definition dpd_setup (pos vel F : nat -> vec3 R) (p : plist) (f : dpdf) : outcome dpds :=
      let? s := md_start y pos vel F p in
      let? f := dpd_forces true (mX s) (mPos s) (mVel s) f in
      Ok (Dp s f).
    (** The sum of conservative, dissipative and random force, NvtDpdVvIntegrator.cpp:265-267 and 303-305. *)
    Definition dpd_total (F : nat -> vec3 R) (f : dpdf) (a : nat) : vec3 R := vadd (vadd (F a) (dFD f a)) (dFR f a).
    (** NvtDpdVvIntegrator::step, NvtDpdVvIntegrator.cpp:247-319. *)
    Definition dpd_step (s : dpds) : outcome dpds :=
      let m := dM s in
      let (pos, vel) := integrate1 y (dpd_total (mFrc m) (dF s)) (mPos m, mVel m) in
      let? r := md_calc y pos (mFrc m) (mX m) in
      let '(pos, F, p) := r in
      let? f := dpd_forces true p pos vel (dF s) in
      let vel := integrate2 y (dpd_total F f) vel in
      let? f := dpd_forces false p pos vel f in
      Ok (Dp (Mds pos vel F p) f).
    (** Several steps, MdSimulation.cpp:469-487. *)
    Fixpoint dpd_run (n : nat) (s : dpds) : outcome dpds :=
      match n with
      | O => Ok s
      | S n => let? s := dpd_step s in dpd_run n s
      end.
  End Dpd.

  (** ** Langevin *)
  Section Langevin.
    (** gamma_ and the temperature. *)
    Variables (gamma temp : R).
    (** The numbers that Random::uniform() will return. *)
    Variable unif : nat -> R.

    (** cv_[typeId], NvtLangevinIntegrator.cpp:90 and 101, ddMd NvtLangevinIntegrator.cpp:109 and 121. *)
    Definition lang_cv (a : nat) : R := yMass y (yTy y a) * ((exp (- yDt y * gamma) - 1) / yDt y).
    (** cr_[typeId], NvtLangevinIntegrator.cpp:92-93 and 102, ddMd NvtLangevinIntegrator.cpp:111-112 and 122. *)
    Definition lang_cr (a : nat) : R :=
      let d := 2 / (1 + exp (- yDt y * gamma)) in
      let cr := 12 * temp * d * (1 - exp (-2 * yDt y * gamma)) / (yDt y * yDt y) in
      sqrt (yMass y (yTy y a) * cr).
    (** The body of the second loop, NvtLangevinIntegrator.cpp:214-234, ddMd NvtLangevinIntegrator.cpp:163-178.  The state holds
        the forces, the velocities and how many numbers have been drawn. *)
    Definition lang_kick (s : (nat -> vec3 R) * (nat -> vec3 R) * nat) (a : nat) : (nat -> vec3 R) * (nat -> vec3 R) * nat :=
      let '(F, vel, k) := s in
      let df := vscale (lang_cv a) (vel a) in
      let cr := lang_cr a in
      let df := V3 (vx df + (unif k - 1/2) * cr) (vy df + (unif (k + 1)%nat - 1/2) * cr) (vz df + (unif (k + 2)%nat - 1/2) * cr) in
      let f := vadd (F a) df in
      (move F a f, move vel a (vadd (vel a) (vscale (prefactor y a) f)), (k + 3)%nat).
    (** NvtLangevinIntegrator::step, NvtLangevinIntegrator.cpp:124-238, and integrateStep1 and integrateStep2 of ddMd
        NvtLangevinIntegrator.cpp:130-182 for one processor, with any way [calc] of computing forces. *)
    Definition lang_step {X} (calc : (nat -> vec3 R) -> (nat -> vec3 R) -> X -> outcome ((nat -> vec3 R) * (nat -> vec3 R) * X))
        (s : mds X * nat) : outcome (mds X * nat) :=
      let (m, k) := s in
      let (pos, vel) := integrate1 y (mFrc m) (mPos m, mVel m) in
      let? r := calc pos (mFrc m) (mX m) in
      let '(pos, F, x) := r in
      let '(F, vel, k) := fold_left lang_kick (yAtoms y) (F, vel, k) in
      Ok (Mds pos vel F x, k).
    (** Several steps, MdSimulation.cpp:469-487. *)
    Fixpoint lang_run {X} (calc : (nat -> vec3 R) -> (nat -> vec3 R) -> X -> outcome ((nat -> vec3 R) * (nat -> vec3 R) * X))
        (n : nat) (s : mds X * nat) : outcome (mds X * nat) :=
      match n with
      | O => Ok s
      | S n => let? s := lang_step calc s in lang_run calc n s
      end.
  End Langevin.
End Thermo.
Arguments Nh {X} _ _ _.
Arguments nS {X} _.
Arguments nXi {X} _.
Arguments nXd {X} _.

(** ** Archives *)
(** A sequence of ints, doubles, strings and bools; reading past the end or at the wrong type is undefined.
    Serializable::IArchive and OArchive (util, documented). *)
Inductive tword := TI (z : Z) | TD (x : R) | TS (s : list nat) | TB (b : bool).
(** util, documented. *)
Definition trdI (a : list tword) : outcome (Z * list tword) := match a with TI z :: r => Ok (z, r) | _ => UB end.
(** util, documented. *)
Definition trdD (a : list tword) : outcome (R * list tword) := match a with TD x :: r => Ok (x, r) | _ => UB end.
(** util, documented. *)
Definition trdS (a : list tword) : outcome (list nat * list tword) := match a with TS s :: r => Ok (s, r) | _ => UB end.
(** util, documented. *)
Definition trdB (a : list tword) : outcome (bool * list tword) := match a with TB b :: r => Ok (b, r) | _ => UB end.
(** Vector::serialize (util, documented). *)
Definition twV (v : vec3 R) : list tword := [TD (vx v); TD (vy v); TD (vz v)].
(** util, documented. *)
Definition trdV (a : list tword) : outcome (vec3 R * list tword) :=
  let? (x, a) := trdD a in let? (y, a) := trdD a in let? (z, a) := trdD a in Ok (V3 x y z, a).
(** Repeated reading, as in DArray::serialize (util, documented). *)
Fixpoint trds {A} (rd : list tword -> outcome (A * list tword)) (n : nat) (a : list tword) : outcome (list A * list tword) :=
  match n with
  | O => Ok ([], a)
  | S n => let? (z, a) := rd a in let? (l, a) := trds rd n a in Ok (z :: l, a)
  end.
(** DArray::serialize (util, documented), saving: the capacity, then the elements. *)
Definition twArr {A} (w : A -> list tword) (l : list A) : list tword := TI (Z.of_nat (length l)) :: concat (map w l).
(** allocate(n), which throws unless 0 < n, then DArray::serialize, which throws if the saved capacity differs (util, documented). *)
Definition trdArr {A} (rd : list tword -> outcome (A * list tword)) (n : Z) (a : list tword) : outcome (list A * list tword) :=
  if Z_lt_dec 0 n then let? (c, a) := trdI a in if Z.eq_dec c n then trds rd (Z.to_nat n) a else Throw else Throw.
(** DArray::serialize into an array that was not allocated: the saved capacity is allocated, if positive (util, documented). *)
Definition trdArr0 {A} (rd : list tword -> outcome (A * list tword)) (a : list tword) : outcome (list A * list tword) :=
  let? (c, a) := trdI a in trds rd (Z.to_nat c) a.

(** mcMd NveVvIntegrator: dt_, prefactors_.  NveVvIntegrator.h. *)
Record nve_ar := NveA { veDt : R;  vePre : list R }.
(** NveVvIntegrator.cpp:62-66. *)
Definition nve_save (x : nve_ar) : list tword := TD (veDt x) :: twArr (fun v => [TD v]) (vePre x).
(** NveVvIntegrator.cpp:51-57; [types] is nAtomType. *)
Definition nve_load (types : Z) (a : list tword) : outcome (nve_ar * list tword) :=
  let? (dt, a) := trdD a in let? (pre, a) := trdArr trdD types a in Ok (NveA dt pre, a).
(** mcMd NvtNhIntegrator: dt_, tauT_, nuT_, T_target_, T_kinetic_, xiDot_, xi_, prefactors_.  NvtNhIntegrator.h:92-110. *)
Record nh_ar := NhA { hDt : R;  hTau : R;  hNu : R;  hTt : R;  hTk : R;  hXd : R;  hXi : R;  hPre : list R }.
(** NvtNhIntegrator.cpp:97-107. *)
Definition nh_save (x : nh_ar) : list tword :=
  [TD (hDt x); TD (hTau x); TD (hNu x); TD (hTt x); TD (hTk x); TD (hXd x); TD (hXi x)] ++ twArr (fun v => [TD v]) (hPre x).
(** NvtNhIntegrator.cpp:82-92. *)
Definition nh_load (a : list tword) : outcome (nh_ar * list tword) :=
  let? (dt, a) := trdD a in let? (tau, a) := trdD a in let? (nu, a) := trdD a in let? (t0, a) := trdD a in
  let? (tk, a) := trdD a in let? (xd, a) := trdD a in let? (xi, a) := trdD a in let? (pre, a) := trdArr0 trdD a in
  Ok (NhA dt tau nu t0 tk xd xi pre, a).
(** mcMd NvtDpdVvIntegrator.  NvtDpdVvIntegrator.h:93-129. *)
Record dpd_ar := DpdA { pDt : R;  pCut : R;  pGam : R;  pTemp : R;  pSig : R;  pCutSq : R;  pCap : Z;  pPre : list R;
                        pFD : list (vec3 R);  pFR : list (vec3 R) }.
(** NvtDpdVvIntegrator.cpp:126-138. *)
Definition dpd_save (x : dpd_ar) : list tword :=
  [TD (pDt x); TD (pCut x); TD (pGam x); TD (pTemp x); TD (pSig x); TD (pCutSq x); TI (pCap x)] ++
  twArr (fun v => [TD v]) (pPre x) ++ twArr twV (pFD x) ++ twArr twV (pFR x).
(** NvtDpdVvIntegrator.cpp:95-121; [maxcut] is maxPairCutoff(). *)
Definition dpd_load (maxcut : R) (a : list tword) : outcome (dpd_ar * list tword) :=
  let? (dt, a) := trdD a in let? (cut, a) := trdD a in
  if Rlt_dec maxcut cut then Throw else
  let? (gam, a) := trdD a in let? (temp, a) := trdD a in let? (sig, a) := trdD a in let? (csq, a) := trdD a in
  let? (cap, a) := trdI a in let? (pre, a) := trdArr0 trdD a in let? (fd, a) := trdArr0 trdV a in let? (fr, a) := trdArr0 trdV a in
  Ok (DpdA dt cut gam temp sig csq cap pre fd fr, a).
(** mcMd NphIntegrator: dt_, W_, mode_, eta_, currP_, prefactors_.  NphIntegrator.h:122-134. *)
Record nph_ar := NphA { npDt : R;  npW : R;  npMode : Z;  npEta : vec3 R;  npP : vec3 R;  npPre : list R }.
(** mcMd NphIntegrator.cpp:76-84. *)
Definition nph_save (x : nph_ar) : list tword :=
  [TD (npDt x); TD (npW x); TI (npMode x)] ++ twV (npEta x) ++ twV (npP x) ++ twArr (fun v => [TD v]) (npPre x).
(** mcMd NphIntegrator.cpp:63-71. *)
Definition nph_load (a : list tword) : outcome (nph_ar * list tword) :=
  let? (dt, a) := trdD a in let? (w, a) := trdD a in let? (mode, a) := trdI a in let? (eta, a) := trdV a in let? (p, a) := trdV a in
  let? (pre, a) := trdArr0 trdD a in Ok (NphA dt w mode eta p pre, a).
(** mcMd NvtLangevinIntegrator: dt_, gamma_, prefactors_, cv_, cr_.  NvtLangevinIntegrator.h. *)
Record lang_ar := LangA { lDt : R;  lGam : R;  lPre : list R;  lCv : list R;  lCr : list R }.
(** NvtLangevinIntegrator.cpp:72-79. *)
Definition lang_save (x : lang_ar) : list tword :=
  [TD (lDt x); TD (lGam x)] ++ twArr (fun v => [TD v]) (lPre x) ++ twArr (fun v => [TD v]) (lCv x) ++ twArr (fun v => [TD v]) (lCr x).
(** NvtLangevinIntegrator.cpp:59-67; gamma_ keeps the value [g] of the loading object. *)
Definition lang_load (types : Z) (g : R) (a : list tword) : outcome (lang_ar * list tword) :=
  let? (dt, a) := trdD a in let? (pre, a) := trdArr trdD types a in
  let? (cv, a) := trdArr0 trdD a in let? (cr, a) := trdArr0 trdD a in Ok (LangA dt g pre cv cr, a).

(** ddMd Integrator: saveInterval_, saveFileName_, iStep_, isSetup_.  src/ddMd/integrators/Integrator.h. *)
Record base_ar := BaseA { bInt : Z;  bName : list nat;  bStep : Z;  bSetup : bool }.
(** ddMd Integrator.cpp:105-113. *)
Definition base_save (x : base_ar) : list tword :=
  [TI (bInt x)] ++ (if Z_lt_dec 0 (bInt x) then [TS (bName x)] else []) ++ [TI (bStep x); TB (bSetup x)].
(** ddMd Integrator.cpp:83-100; [bi] is Analyzer::baseInterval, [name] the saveFileName_ of the loading object. *)
Definition base_load (bi : Z) (name : list nat) (a : list tword) : outcome (base_ar * list tword) :=
  let? (int, a) := trdI a in
  let? (nm, a) := (if Z_lt_dec 0 int then
                     if Z_lt_dec 0 bi then if Z.eq_dec (Z.rem int bi) 0 then trdS a else Throw else Throw
                   else Ok (name, a)) in
  let? (step, a) := trdI a in let? (su, a) := trdB a in Ok (BaseA int nm step su, a).
(** ddMd NveIntegrator.cpp:68-72. *)
Definition dd_nve_save (x : R * base_ar) : list tword := TD x.1 :: base_save x.2.
(** ddMd NveIntegrator.cpp:53-63. *)
Definition dd_nve_load (bi : Z) (name : list nat) (a : list tword) : outcome (R * base_ar * list tword) :=
  let? (dt, a) := trdD a in let? (b, a) := base_load bi name a in Ok (dt, b, a).
(** ddMd NvtIntegrator: dt_, tauT_, nuT_, xi_.  NvtIntegrator.h:85-109. *)
Record dd_nvt_ar := NvtA { vtDt : R;  vtTau : R;  vtB : base_ar;  vtNu : R;  vtXi : R }.
(** ddMd NvtIntegrator.cpp:96-103. *)
Definition dd_nvt_save (x : dd_nvt_ar) : list tword := [TD (vtDt x); TD (vtTau x)] ++ base_save (vtB x) ++ [TD (vtNu x); TD (vtXi x)].
(** ddMd NvtIntegrator.cpp:77-91. *)
Definition dd_nvt_load (bi : Z) (name : list nat) (a : list tword) : outcome (dd_nvt_ar * list tword) :=
  let? (dt, a) := trdD a in let? (tau, a) := trdD a in let? (b, a) := base_load bi name a in
  let? (nu, a) := trdD a in let? (xi, a) := trdD a in Ok (NvtA dt tau b nu xi, a).
(** ddMd NphIntegrator: dt_, W_, mode_, nu_.  NphIntegrator.h:83-95. *)
Record dd_nph_ar := DNphA { dhDt : R;  dhW : R;  dhMode : Z;  dhB : base_ar;  dhNu : vec3 R }.
(** ddMd NphIntegrator.cpp:82-89. *)
Definition dd_nph_save (x : dd_nph_ar) : list tword := [TD (dhDt x); TD (dhW x); TI (dhMode x)] ++ base_save (dhB x) ++ twV (dhNu x).
(** ddMd NphIntegrator.cpp:62-77. *)
Definition dd_nph_load (bi : Z) (name : list nat) (a : list tword) : outcome (dd_nph_ar * list tword) :=
  let? (dt, a) := trdD a in let? (w, a) := trdD a in let? (mode, a) := trdI a in let? (b, a) := base_load bi name a in
  let? (nu, a) := trdV a in Ok (DNphA dt w mode b nu, a).
(** ddMd NptIntegrator: dt_, tauT_, tauP_, mode_, xi_, eta_, nu_.  NptIntegrator.h:88-98. *)
Record dd_npt_ar := NptA { ptDt : R;  ptTauT : R;  ptTauP : R;  ptMode : Z;  ptB : base_ar;  ptXi : R;  ptEta : R;  ptNu : vec3 R }.
(** ddMd NptIntegrator.cpp:86-96. *)
Definition dd_npt_save (x : dd_npt_ar) : list tword :=
  [TD (ptDt x); TD (ptTauT x); TD (ptTauP x); TI (ptMode x)] ++ base_save (ptB x) ++ [TD (ptXi x); TD (ptEta x)] ++ twV (ptNu x).
(** ddMd NptIntegrator.cpp:64-81. *)
Definition dd_npt_load (bi : Z) (name : list nat) (a : list tword) : outcome (dd_npt_ar * list tword) :=
  let? (dt, a) := trdD a in let? (tT, a) := trdD a in let? (tp, a) := trdD a in let? (mode, a) := trdI a in
  let? (b, a) := base_load bi name a in
  let? (xi, a) := trdD a in let? (eta, a) := trdD a in let? (nu, a) := trdV a in Ok (NptA dt tT tp mode b xi eta nu, a).
(** ddMd NvtLangevinIntegrator: dt_, gamma_.  ddMd/integrators/NvtLangevinIntegrator.h. *)
Record dd_lang_ar := DLangA { dlDt : R;  dlGam : R;  dlB : base_ar }.
(** ddMd NvtLangevinIntegrator.cpp:81-86. *)
Definition dd_lang_save (x : dd_lang_ar) : list tword := [TD (dlDt x); TD (dlGam x)] ++ base_save (dlB x).
(** ddMd NvtLangevinIntegrator.cpp:64-76; gamma_ keeps the value [g] of the loading object. *)
Definition dd_lang_load (bi : Z) (name : list nat) (g : R) (a : list tword) : outcome (dd_lang_ar * list tword) :=
  let? (dt, a) := trdD a in let? (b, a) := base_load bi name a in Ok (DLangA dt g b, a).
