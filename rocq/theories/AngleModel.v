(** Model of the angle interactions Simp::CosineAngle, CosineSqAngle and HarmonicAngle
    (src/simp/interaction/angle), over real numbers. *)
From Verif Require Import Base Vec3 BoxSpec BondModel.
From Coq Require Import Reals.
Local Open Scope R_scope.

(** Vector::divide, operator /= (util, documented). *)
Definition vdivs (v : vec3 R) (a : R) : vec3 R := V3 (vx v / a) (vy v / a) (vz v / a).
(** Vector::abs.  Util::Vector, util/space/Vector.h (documented). *)
Definition vabs (v : vec3 R) : R := sqrt (normSq v).

(** Bend.h:67-74, the value left in cosTheta. *)
Definition bend_cos (b1 b2 : vec3 R) : R :=
  let d := sqrt (normSq b1 * normSq b2) in
  let c := vdot b1 b2 / d in
  let c := if Rgt_dec c 1 then 1 else c in
  if Rlt_dec c (-1) then -1 else c.
(** Bend.h:79-88. *)
Definition bend_sin (c : R) : R := sqrt (1 - c * c).
(** Bend::theta, Bend.h:84-88. *)
Definition bend_theta (c : R) : R := acos c.

(** BendForce.h:63-84: cosTheta, d1, d2. *)
Definition bend_derivs (b1 b2 : vec3 R) : R * vec3 R * vec3 R :=
  let b1Abs := vabs b1 in
  let u1 := vdivs b1 b1Abs in
  let b2Abs := vabs b2 in
  let u2 := vdivs b2 b2Abs in
  let c := vdot u1 u2 in
  (c, vdivs (vsub u2 (vscale c u1)) b1Abs, vdivs (vsub u1 (vscale c u2)) b2Abs).

(** Parameter names.  CosineSqAngle.cpp:172-199. *)
Inductive aname := AKappa | ATheta0 | AOther.

(** CosineAngle.h:171-174. *)
Record cangle := CA { caK : ptab; caN : nat }.
(** CosineAngle.cpp:21-28. *)
Definition ca_new : cangle := CA (fun _ => 0) 0.
(** CosineAngle.cpp:65-71; MaxNAngleType = 4. *)
Definition ca_setN (a : cangle) (n : nat) : outcome cangle :=
  if (4 <? n)%nat then Throw else Ok (CA (caK a) n).
(** CosineAngle.cpp:76-80. *)
Definition ca_read (a : cangle) (k : ptab) : outcome cangle :=
  if (caN a =? 0)%nat then Throw else Ok (CA (pread (caN a) (caK a) k) (caN a)).
(** CosineAngle.cpp:153-160. *)
Definition ca_set (a : cangle) (nm : aname) (i : nat) (x : R) : outcome cangle :=
  match nm with AKappa => if (i <? 4)%nat then Ok (CA (pset (caK a) i x) (caN a)) else UB | _ => Throw end.
(** CosineAngle.cpp:165-174. *)
Definition ca_get (a : cangle) (nm : aname) (i : nat) : outcome R :=
  match nm with AKappa => Ok (caK a i) | _ => Throw end.
(** CosineAngle.h:183-184. *)
Definition ca_energy (a : cangle) (c : R) (i : nat) : R := caK a i * (1 - c).
(** CosineAngle.h:192-213. *)
Definition ca_force (a : cangle) (b1 b2 : vec3 R) (i : nat) : vec3 R * vec3 R :=
  let r1 := vabs b1 in let r2 := vabs b2 in
  let u1 := vdivs b1 r1 in let u2 := vdivs b2 r2 in
  let c := vdot u1 u2 in
  (vscale (caK a i / r1) (vsub (vscale c u1) u2), vscale (caK a i / r2) (vsub (vscale c u2) u1)).

(** CosineSqAngle.h:170-175. *)
Record csangle := CS { csK : ptab; csT : ptab; csC : ptab; csN : nat }.
(** CosineSqAngle.cpp:23-32. *)
Definition cs_new : csangle := CS (fun _ => 0) (fun _ => 0) (fun _ => 1) 0.
(** CosineSqAngle.cpp:64-70. *)
Definition cs_setN (a : csangle) (n : nat) : outcome csangle :=
  if (4 <? n)%nat then Throw else Ok (CS (csK a) (csT a) (csC a) n).
(** CosineSqAngle.cpp:75-88. *)
Definition cs_read (a : csangle) (k t : ptab) : outcome csangle :=
  if (csN a =? 0)%nat then Throw else
  let t := pread (csN a) (csT a) t in
  Ok (CS (pread (csN a) (csK a) k) t (pread (csN a) (csC a) (fun i => cos (t i / 180 * PI))) (csN a)).
(** CosineSqAngle.cpp:172-182: cosTheta0_ is not updated. *)
Definition cs_set (a : csangle) (nm : aname) (i : nat) (x : R) : outcome csangle :=
  match nm with
  | AKappa => if (i <? 4)%nat then Ok (CS (pset (csK a) i x) (csT a) (csC a) (csN a)) else UB
  | ATheta0 => if (i <? 4)%nat then Ok (CS (csK a) (pset (csT a) i x) (csC a) (csN a)) else UB
  | AOther => Throw
  end.
(** CosineSqAngle.cpp:187-199. *)
Definition cs_get (a : csangle) (nm : aname) (i : nat) : outcome R :=
  match nm with AKappa => Ok (csK a i) | ATheta0 => Ok (csT a i) | AOther => Throw end.
(** CosineSqAngle.h:184-189. *)
Definition cs_energy (a : csangle) (c : R) (i : nat) : R :=
  csK a i * (c - csC a i) * (c - csC a i) * (1/2).
(** CosineSqAngle.h:197-218. *)
Definition cs_force (a : csangle) (b1 b2 : vec3 R) (i : nat) : vec3 R * vec3 R :=
  let r1 := vabs b1 in let r2 := vabs b2 in
  let u1 := vdivs b1 r1 in let u2 := vdivs b2 r2 in
  let c := vdot u1 u2 in
  (vscale (csK a i / r1 * (csC a i - c)) (vsub (vscale c u1) u2),
   vscale (csK a i / r2 * (csC a i - c)) (vsub (vscale c u2) u1)).

(** HarmonicAngle.h:170-174. *)
Record hangle := HA { haK : ptab; haT : ptab; haN : nat }.
(** HarmonicAngle.cpp:21-29. *)
Definition ha_new : hangle := HA (fun _ => 0) (fun _ => 0) 0.
(** HarmonicAngle.cpp:59-65. *)
Definition ha_setN (a : hangle) (n : nat) : outcome hangle :=
  if (4 <? n)%nat then Throw else Ok (HA (haK a) (haT a) n).
(** HarmonicAngle.cpp:70-83: theta0 is read in degrees and stored in radians. *)
Definition ha_read (a : hangle) (k t : ptab) : outcome hangle :=
  if (haN a =? 0)%nat then Throw else
  Ok (HA (pread (haN a) (haK a) k) (pread (haN a) (haT a) (fun i => t i * PI / 180)) (haN a)).
(** HarmonicAngle.cpp:160-170. *)
Definition ha_set (a : hangle) (nm : aname) (i : nat) (x : R) : outcome hangle :=
  match nm with
  | AKappa => if (i <? 4)%nat then Ok (HA (pset (haK a) i x) (haT a) (haN a)) else UB
  | ATheta0 => if (i <? 4)%nat then Ok (HA (haK a) (pset (haT a) i x) (haN a)) else UB
  | AOther => Throw
  end.
(** HarmonicAngle.cpp:175-187. *)
Definition ha_get (a : hangle) (nm : aname) (i : nat) : outcome R :=
  match nm with AKappa => Ok (haK a i) | ATheta0 => Ok (haT a i) | AOther => Throw end.
(** HarmonicAngle.h:183-187. *)
Definition ha_energy (a : hangle) (c : R) (i : nat) : R :=
  let dTheta := acos c - haT a i in 1/2 * haK a i * dTheta * dTheta.
(** HarmonicAngle.h:195-210. *)
Definition ha_force (a : hangle) (b1 b2 : vec3 R) (i : nat) : vec3 R * vec3 R :=
  let '(c, d1, d2) := bend_derivs b1 b2 in
  let s := bend_sin c in
  if Rgt_dec s (1 / 10 ^ 10) then
    let factor := haK a i * (haT a i - bend_theta c) / s in
    (vscale factor d1, vscale factor d2)
  else (V3 0 0 0, V3 0 0 0).

(** mcMd/potentials/angle/AnglePotentialImpl.h:407-419 and
    ddMd/potentials/angle/AnglePotentialImpl.h:350-363 (all three atoms local): forces on the three atoms,
    given what force() returned. *)
Definition angle_atom_forces (f : vec3 R * vec3 R) : vec3 (vec3 R) :=
  let '(f1, f2) := f in
  V3 f1 (vadd (vsub (V3 0 0 0) f1) f2) (vsub (V3 0 0 0) f2).
(** AnglePotentialImpl.h (mcMd) 376-381: energy of one angle; no clamp of cosTheta. *)
Definition angle_energy (en : R -> nat -> R) (b1 b2 : vec3 R) (i : nat) : R :=
  en (vdot b1 b2 / sqrt (normSq b1 * normSq b2)) i.
