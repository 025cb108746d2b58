(** Model of the external fields Simp::LamellarOrderingExternal, SimplePeriodicExternal, PeriodicExternal,
    GeneralPeriodicExternal, NucleationExternal and SphericalTabulatedExternal
    (src/simp/interaction/external), over real numbers.  The boundary is represented by its lengths
    (Boundary::lengths()).  [n] is nWaveVectors_; arrays are lists, indices below the allocated sizes
    are used only ([nth]); integers are unbounded. *)
From Verif Require Import Base Vec3 BoxSpec OrthoModel SpeciesModel WallModel.
From Coq Require Import Reals.
Local Open Scope R_scope.

(** 2.0*M_PI*periodicity_*waveVectors_[i][c]/cellLengths[c] for the three axes c.
    SimplePeriodicExternal.h:188-191, PeriodicExternal.h:199-202, GeneralPeriodicExternal.h:203-206,
    NucleationExternal.h:207-210. *)
Definition wave_q (per : Z) (L w : vec3 R) : vec3 R :=
  V3 (2 * PI * IZR per * vx w / vx L) (2 * PI * IZR per * vy w / vy L) (2 * PI * IZR per * vz w / vz L).
(** SimplePeriodicExternal.h:184, PeriodicExternal.h:193, GeneralPeriodicExternal.h:190, NucleationExternal.h:200. *)
Definition clipParameter (per : Z) (width : R) : R := 1 / (2 * PI * IZR per * width).

(** ** LamellarOrderingExternal *)
(** LamellarOrderingExternal.h:162-189. *)
Record lamellar := Lamellar { laDir : Z; laPre : list R; laExt : R; laWidth : R; laPer : Z }.
(** LamellarOrderingExternal.h:196-209. *)
Definition lamellar_energy1 (x : lamellar) (L : vec3 R) (d : R) (type : nat) : R :=
  let perpLength := vget L (Z.to_nat (laDir x)) in
  let q := (2 * PI * IZR (laPer x)) / perpLength in
  let clip := 1 / (q * laWidth x * perpLength) in
  let clipcos := clip * cos (q * d) in
  nth type (laPre x) 0 * laExt x * tanh clipcos.
(** LamellarOrderingExternal.h:214-223. *)
Definition lamellar_energy (x : lamellar) (L p : vec3 R) (type : nat) : R :=
  0 + lamellar_energy1 x L (vget p (Z.to_nat (laDir x))) type.
(** LamellarOrderingExternal.h:228-242. *)
Definition lamellar_forceScalar (x : lamellar) (L : vec3 R) (d : R) (type : nat) : R :=
  let perpLength := vget L (Z.to_nat (laDir x)) in
  let q := (2 * PI * IZR (laPer x)) / perpLength in
  let clip := 1 / (q * laWidth x * perpLength) in
  let arg := q * d in
  let clipcos := clip * cos arg in
  let tanH := tanh clipcos in
  let sechSq := 1 - tanH * tanH in
  nth type (laPre x) 0 * laExt x * sechSq * clip * sin arg * q.
(** LamellarOrderingExternal.h:247-256. *)
Definition lamellar_getForce (x : lamellar) (L p : vec3 R) (type : nat) : vec3 R :=
  let d := vget p (Z.to_nat (laDir x)) in
  vset (V3 0 0 0) (Z.to_nat (laDir x)) (lamellar_forceScalar x L d type).

(** ** SimplePeriodicExternal *)
(** SimplePeriodicExternal.h:142-172; waveIntVectors_ are integer vectors. *)
Record simple := Simple { siPre : list R; siExt : R; siN : nat; siWaves : list (vec3 Z); siWidth : R; siPer : Z }.
(** Integer wave vectors as reals (conversion of int in SimplePeriodicExternal.h:189-191). *)
Definition si_wave (x : simple) (i : nat) : vec3 R := vmap IZR (nth i (siWaves x) (V3 0 0 0)%Z).
(** SimplePeriodicExternal.h:181-197. *)
Definition simple_energy (x : simple) (L p : vec3 R) (type : nat) : R :=
  let clip := clipParameter (siPer x) (siWidth x) in
  let cosine := foldl (fun c i => c + cos (vdot (wave_q (siPer x) L (si_wave x i)) p)) 0 (seq 0 (siN x)) in
  let cosine := cosine * clip in
  nth type (siPre x) 0 * siExt x * tanh cosine.
(** SimplePeriodicExternal.h:202-230. *)
Definition simple_getForce (x : simple) (L p : vec3 R) (type : nat) : vec3 R :=
  let clip := clipParameter (siPer x) (siWidth x) in
  let '(cosine, deriv) :=
    foldl (fun (s : R * vec3 R) i =>
             let q := wave_q (siPer x) L (si_wave x i) in
             let arg := vdot q p in
             let sine := -1 * sin arg in
             (fst s + cos arg, vadd (snd s) (vscale sine q)))
          (0, V3 0 0 0) (seq 0 (siN x)) in
  let cosine := cosine * clip in
  let deriv := vscale clip deriv in
  let tanH := tanh cosine in
  let sechSq := 1 - tanH * tanH in
  let f := nth type (siPre x) 0 * siExt x * sechSq in
  vscale (-1 * f) deriv.

(** ** PeriodicExternal *)
(** PeriodicExternal.h:142-181. *)
Record periodic := Periodic { pePre : list R; peExt : R; peN : nat; peC : R; peWaves : list (vec3 R); pePhases : list R;
                              peShift : vec3 R; peWidth : R; pePer : Z }.
(** The loops of PeriodicExternal.h:197-205 and 222-235, NucleationExternal.h:205-213 and 242-255. *)
Definition pe_arg (x : periodic) (L p : vec3 R) (i : nat) : R :=
  vdot (wave_q (pePer x) L (nth i (peWaves x) (V3 0 0 0))) (vsub p (peShift x)) + nth i (pePhases x) 0.
(** PeriodicExternal.h:197-205. *)
Definition pe_cosine (x : periodic) (L p : vec3 R) : R :=
  foldl (fun c i => c + cos (pe_arg x L p i)) 0 (seq 0 (peN x)).
(** PeriodicExternal.h:222-235. *)
Definition pe_loop (x : periodic) (L p : vec3 R) : R * vec3 R :=
  foldl (fun (s : R * vec3 R) i =>
           let arg := pe_arg x L p i in
           let sine := -1 * sin arg in
           (fst s + cos arg, vadd (snd s) (vscale sine (wave_q (pePer x) L (nth i (peWaves x) (V3 0 0 0))))))
        (0, V3 0 0 0) (seq 0 (peN x)).
(** PeriodicExternal.h:190-208. *)
Definition periodic_energy (x : periodic) (L p : vec3 R) (type : nat) : R :=
  let cosine := pe_cosine x L p * clipParameter (pePer x) (peWidth x) in
  nth type (pePre x) 0 * peExt x * tanh (peC x + cosine).
(** PeriodicExternal.h:213-243. *)
Definition periodic_getForce (x : periodic) (L p : vec3 R) (type : nat) : vec3 R :=
  let clip := clipParameter (pePer x) (peWidth x) in
  let '(cosine, deriv) := pe_loop x L p in
  let cosine := cosine * clip in
  let deriv := vscale clip deriv in
  let tanH := tanh (peC x + cosine) in
  let sechSq := 1 - tanH * tanH in
  let f := nth type (pePre x) 0 * peExt x * sechSq in
  vscale (-1 * f) deriv.

(** ** GeneralPeriodicExternal *)
(** GeneralPeriodicExternal.h:142-178; prefactor_ holds nAtomType_ values per wave, shifts_ three. *)
Record general := General { geTypes : nat; gePre : list R; geExt : R; geN : nat; geWaves : list (vec3 R);
                            gePhases : list R; geShifts : list R; geWidth : R; gePer : Z }.
(** GeneralPeriodicExternal.h:199-202. *)
Definition ge_shift (x : general) (i : nat) : vec3 R :=
  V3 (nth (i * 3 + 0) (geShifts x) 0) (nth (i * 3 + 1) (geShifts x) 0) (nth (i * 3 + 2) (geShifts x) 0).
(** GeneralPeriodicExternal.h:198-207. *)
Definition ge_arg (x : general) (L p : vec3 R) (i : nat) : R :=
  vdot (wave_q (gePer x) L (nth i (geWaves x) (V3 0 0 0))) (vsub p (ge_shift x i)) + nth i (gePhases x) 0.
(** GeneralPeriodicExternal.h:187-212. *)
Definition general_energy (x : general) (L p : vec3 R) (type : nat) : R :=
  let clip := clipParameter (gePer x) (geWidth x) in
  let cosine := foldl (fun c i => c + nth (i * geTypes x + type) (gePre x) 0 * cos (ge_arg x L p i)) 0 (seq 0 (geN x)) in
  let cosine := cosine * clip in
  geExt x * tanh cosine.
(** GeneralPeriodicExternal.h:217-254. *)
Definition general_getForce (x : general) (L p : vec3 R) (type : nat) : vec3 R :=
  let clip := clipParameter (gePer x) (geWidth x) in
  let '(cosine, deriv) :=
    foldl (fun (s : R * vec3 R) i =>
             let arg := ge_arg x L p i in
             let sine := -1 * sin arg in
             (fst s + nth (i * geTypes x + type) (gePre x) 0 * cos arg,
              vadd (snd s) (vscale (nth (i * geTypes x + type) (gePre x) 0 * sine)
                                   (wave_q (gePer x) L (nth i (geWaves x) (V3 0 0 0))))))
          (0, V3 0 0 0) (seq 0 (geN x)) in
  let cosine := cosine * clip in
  let deriv := vscale clip deriv in
  let tanH := tanh cosine in
  let sechSq := 1 - tanH * tanH in
  let f := geExt x * sechSq in
  vscale (-1 * f) deriv.

(** ** NucleationExternal *)
(** NucleationExternal.h:142-187: the members of PeriodicExternal, nucleationClip_ and bias_. *)
Record nucleation := Nucleation { nuPer : periodic; nuClip : R; nuBias : R }.
(** 2.0*M_PI*position[c]/cellLengths[c]+acos(bias_).  NucleationExternal.h:217-219, 236-238, 264-280. *)
Definition nu_angle (x : nucleation) (L p : vec3 R) (c : nat) : R :=
  2 * PI * vget p c / vget L c + acos (nuBias x).
(** (tanh(nucleationClip_*(-bias_+cos(..)))+1)/2.  NucleationExternal.h:217-219, 236-238. *)
Definition nu_factor (x : nucleation) (L p : vec3 R) (c : nat) : R :=
  (tanh (nuClip x * (- nuBias x + cos (nu_angle x L p c))) + 1) / 2.
(** NucleationExternal.h:196-222. *)
Definition nucleation_energy (x : nucleation) (L p : vec3 R) (type : nat) : R :=
  let y := nuPer x in
  let cosine := pe_cosine y L p * clipParameter (pePer y) (peWidth y) in
  nth type (pePre y) 0 * peExt y * tanh (peC y + cosine) * nu_factor x L p 0 * nu_factor x L p 1 * nu_factor x L p 2.
(** The term added to deriv[c]; [a] and [b] are the other axes.  NucleationExternal.h:264-280. *)
Definition nu_term (x : nucleation) (L p : vec3 R) (c a b : nat) : R :=
  nuClip x * (PI / vget L c * sin (nu_angle x L p c)) / cosh (nu_angle x L p c) / cosh (nu_angle x L p c) *
  nu_factor x L p a * nu_factor x L p b.
(** NucleationExternal.h:227-282. *)
Definition nucleation_getForce (x : nucleation) (L p : vec3 R) (type : nat) : vec3 R :=
  let y := nuPer x in
  let clip := clipParameter (pePer y) (peWidth y) in
  let ne := nu_factor x L p 0 * nu_factor x L p 1 * nu_factor x L p 2 in
  let '(cosine, deriv) := pe_loop y L p in
  let cosine := cosine * clip in
  let deriv := vscale clip deriv in
  let tanH := tanh (peC y + cosine) in
  let sechSq := 1 - tanH * tanH in
  let f := nth type (pePre y) 0 * peExt y * sechSq in
  let deriv := vscale (-1 * f) deriv in
  let deriv := vscale ne deriv in
  V3 (vx deriv + nu_term x L p 0 1 2) (vy deriv + nu_term x L p 1 0 2) (vz deriv + nu_term x L p 2 0 1).

(** ** SphericalTabulatedExternal *)
(** SphericalTabulatedExternal.h:135-165. *)
Record tabulated := Tab { tabMax : R; tabMaxSq : R; tabDr : R; tabNr : nat; tabPot : list (list R) }.
(** SphericalTabulatedExternal.cpp:118-167: [file] is the table read from the file, one list of [nr] values
    per atom type; the last value is subtracted from each.  The check of the first column is not modelled. *)
Definition tab_read (rMax : R) (nr : nat) (file : list (list R)) : tabulated :=
  Tab rMax (rMax * rMax) (rMax / (INR nr - 1)) nr (map (fun u => map (fun v => v - nth (nr - 1) u 0) u) file).
(** UTIL_CHECK on a proposition about reals (SphericalTabulatedExternal.h:184-187). *)
Definition rcheck {P : Prop} (d : {P} + {~ P}) : outcome unit := if d then Ok tt else Throw.
(** potentials_[type][k] (SphericalTabulatedExternal.h:189, 211). *)
Definition tab_at (x : tabulated) (type : nat) (k : Z) : R := nth (Z.to_nat k) (nth type (tabPot x) []) 0.
(** SphericalTabulatedExternal.h:174-193; the conversion to int of a nonnegative double is its integer part. *)
Definition tab_energy (x : tabulated) (b : ortho) (p : vec3 R) (type : nat) : outcome R :=
  let origin := vscale (1 / 2) (oLen b) in
  let rSq := distanceSq b p origin in
  if Rlt_dec rSq (tabMaxSq x) then
    let r := sqrt rSq in
    let k := Int_part (r / tabDr x) in
    let fp := r - IZR k * tabDr x in
    let? _ := rcheck (Z_le_dec 0 k) in
    let? _ := rcheck (Z_lt_dec k (Z.of_nat (tabNr x) - 1)) in
    let? _ := rcheck (Rge_dec fp 0) in
    let? _ := rcheck (Rle_dec fp 1) in
    let fm := 1 - fp in
    Ok (fm * tab_at x type k + fp * tab_at x type (k + 1))
  else Ok 0.
(** SphericalTabulatedExternal.h:198-219. *)
Definition tab_getForce (x : tabulated) (b : ortho) (p : vec3 R) (type : nat) : outcome (vec3 R) :=
  let origin := vscale (1 / 2) (oLen b) in
  let '(rSq, force) := distanceSq_dr b p origin in
  if Rlt_dec rSq (tabMaxSq x) then
    let r := sqrt rSq in
    let k := Int_part (r / tabDr x) in
    let? _ := rcheck (Z_le_dec 0 k) in
    let? _ := rcheck (Z_lt_dec k (Z.of_nat (tabNr x) - 1)) in
    let fs := tab_at x type k - tab_at x type (k + 1) in
    let fs := fs / tabDr x in
    Ok (vscale (fs / r) force)
  else Ok (V3 0 0 0).

(** ** Archives *)
(** A sequence of ints and doubles; reading past the end or at the wrong type is undefined.
    Serializable::IArchive and OArchive (util, documented). *)
Inductive xword := XI (z : Z) | XD (x : R).
(** util, documented. *)
Definition xrdI (a : list xword) : outcome (Z * list xword) := match a with XI z :: r => Ok (z, r) | _ => UB end.
(** util, documented. *)
Definition xrdD (a : list xword) : outcome (R * list xword) := match a with XD z :: r => Ok (z, r) | _ => UB end.
(** Vector::serialize and IntVector::serialize (util, documented). *)
Definition xwV (v : vec3 R) : list xword := [XD (vx v); XD (vy v); XD (vz v)].
(** util, documented. *)
Definition xrdV (a : list xword) : outcome (vec3 R * list xword) :=
  let? (x, a) := xrdD a in let? (y, a) := xrdD a in let? (z, a) := xrdD a in Ok (V3 x y z, a).
(** util, documented. *)
Definition xwZ (v : vec3 Z) : list xword := [XI (vx v); XI (vy v); XI (vz v)].
(** util, documented. *)
Definition xrdZ (a : list xword) : outcome (vec3 Z * list xword) :=
  let? (x, a) := xrdI a in let? (y, a) := xrdI a in let? (z, a) := xrdI a in Ok (V3 x y z, a).
(** Repeated reading, as in DArray::serialize (util, documented). *)
Fixpoint xrds {A} (rd : list xword -> outcome (A * list xword)) (n : nat) (a : list xword) : outcome (list A * list xword) :=
  match n with
  | O => Ok ([], a)
  | S n => let? (z, a) := rd a in let? (l, a) := xrds rd n a in Ok (z :: l, a)
  end.
(** DArray::serialize (util, documented), saving: the capacity, then the elements. *)
Definition xwArr {A} (w : A -> list xword) (l : list A) : list xword := XI (Z.of_nat (length l)) :: concat (map w l).
(** DArray::allocate(n), which throws unless 0 < n, followed by loadDArray(.., n): DArray::serialize throws
    if the saved capacity differs from the allocated one (util, documented). *)
Definition xrdArr {A} (rd : list xword -> outcome (A * list xword)) (n : Z) (a : list xword) : outcome (list A * list xword) :=
  let? _ := rcheck (Z_lt_dec 0 n) in
  let? (c, a) := xrdI a in let? _ := rcheck (Z.eq_dec c n) in xrds rd (Z.to_nat n) a.
(** loadDArray(.., n) into an array that was not allocated: the saved capacity is allocated; it throws if that
    is less than n (util, documented). *)
Definition xrdArr0 {A} (rd : list xword -> outcome (A * list xword)) (n : Z) (a : list xword) : outcome (list A * list xword) :=
  let? (c, a) := xrdI a in let? _ := rcheck (Z_lt_dec 0 c) in let? _ := rcheck (Z_le_dec n c) in xrds rd (Z.to_nat c) a.

(** LamellarOrderingExternal.cpp:139-148. *)
Definition lamellar_save (x : lamellar) : list xword :=
  [XI (laDir x)] ++ xwArr (fun v => [XD v]) (laPre x) ++ [XD (laExt x); XD (laWidth x); XI (laPer x)].
(** LamellarOrderingExternal.cpp:121-134; [types] is nAtomType_, set before. *)
Definition lamellar_load (types : Z) (a : list xword) : outcome (lamellar * list xword) :=
  let? _ := rcheck (Z_lt_dec 0 types) in
  let? (dir, a) := xrdI a in
  let? _ := rcheck (Z_le_dec 0 dir) in let? _ := rcheck (Z_lt_dec dir 3) in
  let? (pre, a) := xrdArr xrdD types a in
  let? (ext, a) := xrdD a in let? (width, a) := xrdD a in let? (per, a) := xrdI a in
  Ok (Lamellar dir pre ext width per, a).
(** SimplePeriodicExternal.cpp:145-152. *)
Definition simple_save (x : simple) : list xword :=
  xwArr (fun v => [XD v]) (siPre x) ++ [XD (siExt x)] ++ xwArr xwZ (siWaves x) ++ [XD (siWidth x); XI (siPer x)].
(** SimplePeriodicExternal.cpp:128-140; [nw] is the value of nWaveVectors_ in the loading object, which is
    0 after construction (SimplePeriodicExternal.cpp:20-28). *)
Definition simple_load (types nw : Z) (a : list xword) : outcome (simple * list xword) :=
  let? _ := rcheck (Z_lt_dec 0 types) in
  let? (pre, a) := xrdArr xrdD types a in
  let? (ext, a) := xrdD a in
  let? (ws, a) := xrdArr xrdZ nw a in
  let? (width, a) := xrdD a in let? (per, a) := xrdI a in
  Ok (Simple pre ext (Z.to_nat nw) ws width per, a).
(** PeriodicExternal.cpp:175-186. *)
Definition periodic_save (x : periodic) : list xword :=
  xwArr (fun v => [XD v]) (pePre x) ++ [XD (peExt x); XI (Z.of_nat (peN x)); XD (peC x)] ++ xwArr xwV (peWaves x) ++
  xwArr (fun v => [XD v]) (pePhases x) ++ xwV (peShift x) ++ [XD (peWidth x); XI (pePer x)].
(** PeriodicExternal.cpp:152-170. *)
Definition periodic_load (types : Z) (a : list xword) : outcome (periodic * list xword) :=
  let? _ := rcheck (Z_lt_dec 0 types) in
  let? (pre, a) := xrdArr xrdD types a in
  let? (ext, a) := xrdD a in let? (nw, a) := xrdI a in let? (c, a) := xrdD a in
  let? (ws, a) := xrdArr xrdV nw a in
  let? (ph, a) := xrdArr xrdD nw a in
  let? (sh, a) := xrdV a in
  let? (width, a) := xrdD a in let? (per, a) := xrdI a in
  Ok (Periodic pre ext (Z.to_nat nw) c ws ph sh width per, a).
(** GeneralPeriodicExternal.cpp:189-199. *)
Definition general_save (x : general) : list xword :=
  [XI (Z.of_nat (geTypes x))] ++ xwArr (fun v => [XD v]) (gePre x) ++ [XD (geExt x)] ++ xwArr xwV (geWaves x) ++
  xwArr (fun v => [XD v]) (gePhases x) ++ xwArr (fun v => [XD v]) (geShifts x) ++ [XD (geWidth x); XI (gePer x)].
(** GeneralPeriodicExternal.cpp:160-184; nWaveVectors_ of the loading object as above
    (GeneralPeriodicExternal.cpp:20-28). *)
Definition general_load (nw : Z) (a : list xword) : outcome (general * list xword) :=
  let? (types, a) := xrdI a in
  let? _ := rcheck (Z_lt_dec 0 types) in
  let? (pre, a) := xrdArr xrdD (types * nw) a in
  let? (ws, a) := xrdArr xrdV nw a in
  let? (ph, a) := xrdArr xrdD nw a in
  let? (sh, a) := xrdArr xrdD (3 * nw) a in
  let? (ext, a) := xrdD a in let? (width, a) := xrdD a in let? (per, a) := xrdI a in
  Ok (General (Z.to_nat types) pre ext (Z.to_nat nw) ws ph sh width per, a).
(** NucleationExternal.cpp:192-205; [types] is nAtomType_. *)
Definition nucleation_save (types : Z) (x : nucleation) : list xword :=
  let y := nuPer x in
  [XI types] ++ xwArr (fun v => [XD v]) (pePre y) ++ [XD (peExt y); XD (peC y)] ++ xwArr xwV (peWaves y) ++
  xwArr (fun v => [XD v]) (pePhases y) ++ xwV (peShift y) ++ [XD (peWidth y); XI (pePer y); XD (nuClip x); XD (nuBias x)].
(** NucleationExternal.cpp:168-187; phases_ is not allocated before it is loaded; nWaveVectors_ of the loading
    object as above (NucleationExternal.cpp:20-31). *)
Definition nucleation_load (nw : Z) (a : list xword) : outcome (nucleation * list xword) :=
  let? (types, a) := xrdI a in
  let? _ := rcheck (Z_lt_dec 0 types) in
  let? (pre, a) := xrdArr xrdD types a in
  let? (ext, a) := xrdD a in let? (c, a) := xrdD a in
  let? (ws, a) := xrdArr xrdV nw a in
  let? (ph, a) := xrdArr0 xrdD nw a in
  let? (sh, a) := xrdV a in
  let? (width, a) := xrdD a in let? (per, a) := xrdI a in
  let? (clip, a) := xrdD a in let? (bias, a) := xrdD a in
  Ok (Nucleation (Periodic pre ext (Z.to_nat nw) c ws ph sh width per) clip bias, a).
(** SphericalTabulatedExternal.cpp:208-221. *)
Definition tab_save (x : tabulated) : list xword :=
  [XI (Z.of_nat (length (tabPot x))); XD (tabMax x); XI (Z.of_nat (tabNr x))] ++ concat (map (map XD) (tabPot x)).
(** SphericalTabulatedExternal.cpp:172-203; allocations as above. *)
Definition tab_load (a : list xword) : outcome (tabulated * list xword) :=
  let? (types, a) := xrdI a in
  let? _ := rcheck (Z_lt_dec 0 types) in
  let? (rMax, a) := xrdD a in let? (nr, a) := xrdI a in
  let? _ := rcheck (Z_lt_dec 0 nr) in
  let? (pot, a) := xrds (xrds xrdD (Z.to_nat nr)) (Z.to_nat types) a in
  Ok (Tab rMax (rMax * rMax) (rMax / (IZR nr - 1)) (Z.to_nat nr) pot, a).
(** SlitExternal.cpp:135-142, BoxExternal.cpp:136-143. *)
Definition slit_save (w : wall) : list xword := [XD (wEps w); XD (wSig w); XD (wCut w); XD (wCb w); XD (wCoeff w)].
(** The doubles of SlitExternal.cpp:124-128, BoxExternal.cpp:125-129, OrthoBoxExternal.cpp:136-140. *)
Definition wall_words (a : list xword) : outcome (wall * list xword) :=
  let? (eps, a) := xrdD a in let? (sig, a) := xrdD a in let? (cut, a) := xrdD a in
  let? (cb, a) := xrdD a in let? (coeff, a) := xrdD a in Ok (Wall eps sig cb cut coeff, a).
(** SlitExternal.cpp:116-130. *)
Definition slit_load (types : Z) (a : list xword) : outcome (wall * list xword) :=
  if Z.eq_dec types 0 then Throw else wall_words a.
(** BoxExternal.cpp:116-131. *)
Definition box_load (a : list xword) : outcome (wall * list xword) :=
  let? (types, a) := xrdI a in let? _ := rcheck (Z_lt_dec 0 types) in wall_words a.
(** OrthoBoxExternal.cpp:147-156; [k] is indConfine_. *)
Definition orthobox_save (types k : Z) (w : wall) : list xword := [XI types; XI k] ++ slit_save w.
(** OrthoBoxExternal.cpp:123-142. *)
Definition orthobox_load (a : list xword) : outcome (Z * Z * wall * list xword) :=
  let? (types, a) := xrdI a in let? _ := rcheck (Z_lt_dec 0 types) in
  let? (k, a) := xrdI a in let? _ := rcheck (Z_le_dec 0 k) in let? _ := rcheck (Z_le_dec k 3) in
  let? (w, a) := wall_words a in Ok (types, k, w, a).
