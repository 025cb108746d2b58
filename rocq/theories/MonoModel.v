(** Model of Simp::MonoclinicBoundary (src/simp/boundary), over real numbers. *)
From Verif Require Import Base Vec3 OrthoModel BoxIoModel.
From Coq Require Import Reals.
Local Open Scope R_scope.

(** MonoclinicBoundary.h:283-328: all members. *)
Record mono := Mono {
  mMin : vec3 R;  mMax : vec3 R;  mL : vec3 R;  mD : R;  mHalf : vec3 R;  mInv : vec3 R;
  mLengths : vec3 R;  mVol : R;  mC3 : R;  mE : R;  mMinLen : R;
  mBrav : vec3 (vec3 R);  mRecip : vec3 (vec3 R);  mLat : lattice
}.

(** MonoclinicBoundary.cpp:23-45 (constructor). *)
Definition mono_init : mono :=
  let ones := V3 1 1 1 in
  Mono vzero ones ones 0 (V3 (1/2) (1/2) (1/2)) ones ones 1 0 1 1
       (set_diag (V3 vzero vzero vzero) (vget ones))
       (set_diag (V3 vzero vzero vzero) (fun i => 2 * PI / vget ones i)) Monoclinic.

(** MonoclinicBoundary.cpp:70-98 (reset), after l_ and d_ have been assigned. *)
Definition mono_reset (b : mono) (l : vec3 R) (d : R) : mono :=
  let brav := set_diag (mBrav b) (vget l) in
  let recip := set_diag (mRecip b) (fun i => 2 * PI / vget l i) in
  let c3 := - d / vy l in
  let lens := V3 (vx l) (vy l) (vz l / sqrt (1 + c3 * c3)) in
  Mono vzero l l d (vmap (fun x => (1/2) * x) l) (vmap (fun x => 1 / x) l) lens
       (vx l * vy l * vz l) c3 (sqrt (vy l * vy l + d * d)) (min_length lens)
       (vset brav 1 (vset (vget brav 1) 2 d))
       (vset recip 2 (vset (vget recip 2) 1 (- (2 * PI) * d / (vy l * vz l))))
       (mLat b).

(** MonoclinicBoundary.cpp:50-55 and 60-65. *)
Definition setMonoclinic (b : mono) (l : vec3 R) (d : R) : mono := mono_reset b l d.
(** MonoclinicBoundary.cpp:60-65. *)
Definition setMonoOrthorhombic (b : mono) (l : vec3 R) : mono := mono_reset b l 0.

(** MonoclinicBoundary.h:436-471 (shift with counter). *)
Definition mono_shift (b : mono) (r : vec3 R) (s : vec3 Z) : vec3 R * vec3 Z :=
  let (x, sx) :=
    if Rge_dec (vx r) (vx (mMax b)) then (vx r - vx (mL b), (vx s + 1)%Z)
    else if Rlt_dec (vx r) (vx (mMin b)) then (vx r + vx (mL b), (vx s - 1)%Z)
    else (vx r, vx s) in
  let '(y, z, sy) :=
    if Rge_dec (vy r) (vy (mMax b)) then (vy r - vy (mL b), vz r - mD b, (vy s + 1)%Z)
    else if Rlt_dec (vy r) (vy (mMin b)) then (vy r + vy (mL b), vz r + mD b, (vy s - 1)%Z)
    else (vy r, vz r, vy s) in
  let u2 := z + mC3 b * y in
  let (z, sz) :=
    if Rge_dec u2 (vz (mMax b)) then (z - vz (mL b), (vz s + 1)%Z)
    else if Rlt_dec u2 (vz (mMin b)) then (z + vz (mL b), (vz s - 1)%Z)
    else (z, vz s) in
  (V3 x y z, V3 sx sy sz).

(** MonoclinicBoundary.h:402-431 (shift without counter). *)
Definition mono_shift1 (b : mono) (r : vec3 R) : vec3 R :=
  let x :=
    if Rge_dec (vx r) (vx (mMax b)) then vx r - vx (mL b)
    else if Rlt_dec (vx r) (vx (mMin b)) then vx r + vx (mL b) else vx r in
  let '(y, z) :=
    if Rge_dec (vy r) (vy (mMax b)) then (vy r - vy (mL b), vz r - mD b)
    else if Rlt_dec (vy r) (vy (mMin b)) then (vy r + vy (mL b), vz r + mD b)
    else (vy r, vz r) in
  let u2 := z + mC3 b * y in
  let z :=
    if Rge_dec u2 (vz (mMax b)) then z - vz (mL b)
    else if Rlt_dec u2 (vz (mMin b)) then z + vz (mL b) else z in
  V3 x y z.

(** MonoclinicBoundary.h:476-490.  Other values of [i] fall through the switch. *)
Definition mono_applyShift (b : mono) (r : vec3 R) (i : nat) (t : Z) : vec3 R :=
  match i with
  | 0%nat => V3 (vx r + IZR t * vx (mL b)) (vy r) (vz r)
  | 1%nat => V3 (vx r) (vy r + IZR t * vy (mL b)) (vz r + IZR t * mD b)
  | 2%nat => V3 (vx r) (vy r) (vz r + IZR t * vz (mL b))
  | _ => r
  end.

(** MonoclinicBoundary.h:532-582 (translation) and 631-675 (separation): both run the
    same computation; the result is (dr, translate).  shiftGen, 495-527, is
    character for character that of OrthorhombicBoundary ([OrthoModel.shiftGen]). *)
Definition mono_sep (b : mono) (r1 r2 : vec3 R) : vec3 R * vec3 Z :=
  let dx := vx r1 - vx r2 in
  let (dx, tx) :=
    if Rgt_dec (Rabs dx) (vx (mHalf b)) then
      if Rgt_dec dx 0 then (dx - vx (mL b), (-1)%Z) else (dx + vx (mL b), 1%Z)
    else (dx, 0%Z) in
  let dy := vy r1 - vy r2 in
  let dz := vz r1 - vz r2 in
  let u2 := dz + mC3 b * dy in
  let '(dy, dz, ty) :=
    if Rgt_dec (Rabs dy) (vy (mHalf b)) then
      if Rgt_dec dy 0 then (dy - vy (mL b), dz - mD b, (-1)%Z)
      else (dy + vy (mL b), dz + mD b, 1%Z)
    else (dy, dz, 0%Z) in
  let (dz, tz) :=
    if Rgt_dec (Rabs u2) (vz (mHalf b)) then
      if Rgt_dec u2 0 then (dz - vz (mL b), (-1)%Z) else (dz + vz (mL b), 1%Z)
    else (dz, 0%Z) in
  (V3 dx dy dz, V3 tx ty tz).
(** MonoclinicBoundary.h:532-582. *)
Definition mono_distanceSq_shift (b : mono) (r1 r2 : vec3 R) : R * vec3 Z :=
  let (d, t) := mono_sep b r1 r2 in (vx d * vx d + vy d * vy d + vz d * vz d, t).
(** MonoclinicBoundary.h:631-675. *)
Definition mono_distanceSq_dr (b : mono) (r1 r2 : vec3 R) : R * vec3 R :=
  let (d, t) := mono_sep b r1 r2 in (vx d * vx d + vy d * vy d + vz d * vz d, d).
(** MonoclinicBoundary.h:587-626 (value only). *)
Definition mono_distanceSq (b : mono) (r1 r2 : vec3 R) : R :=
  let (d, t) := mono_sep b r1 r2 in vx d * vx d + vy d * vy d + vz d * vz d.

(** MonoclinicBoundary.h:705-712 and 717-724. *)
Definition mono_cartToGen (b : mono) (r : vec3 R) : vec3 R :=
  V3 (vx r * vx (mInv b)) (vy r * vy (mInv b)) ((vz r + mC3 b * vy r) * vz (mInv b)).
(** MonoclinicBoundary.h:717-724. *)
Definition mono_genToCart (b : mono) (g : vec3 R) : vec3 R :=
  V3 (vx g * vx (mL b)) (vy g * vy (mL b)) (vz g * vz (mL b) + vy g * mD b).

(** MonoclinicBoundary.cpp:106-113; [u] are the three numbers returned by
    random.uniform. *)
Definition mono_randomPosition (b : mono) (u : vec3 R) : vec3 R := mono_genToCart b u.

(** MonoclinicBoundary.cpp:118-156. *)
Definition mono_isValid (feq : R -> R -> bool) (b : mono) : bool :=
  forallb (fun i =>
    (if Rle_dec (vget (mMax b) i) (vget (mMin b) i) then false else true) &&
    feq (vget (mL b) i) (vget (mMax b) i - vget (mMin b) i) &&
    feq (vget (mHalf b) i) ((1/2) * vget (mL b) i) &&
    feq (vget (mMin b) i) 0 &&
    feq (vget (mL b) i * vget (mInv b) i) 1 &&
    forallb (fun j =>
      let d := dot (vget (mBrav b) i) (vget (mRecip b) j) in
      if Nat.eqb i j then feq d (2 * PI) else feq d 0) [0; 1; 2]%nat) [0; 1; 2]%nat &&
  feq (mVol b) (vx (mL b) * vy (mL b) * vz (mL b)).

(** MonoclinicBoundary.cpp:177-184; [rnd] as in BoxIoModel. *)
Definition mono_out (rnd : R -> R) (b : mono) : list token :=
  [TLat (mLat b); TNum (rnd (vx (mL b))); TNum (rnd (vy (mL b))); TNum (rnd (vz (mL b)));
   TNum (rnd (mD b))].
(** MonoclinicBoundary.cpp:161-172. *)
Definition mono_in (ts : list token) (b : mono) : outcome (mono * list token) :=
  match ts with
  | TLat Monoclinic :: TNum x :: TNum y :: TNum z :: TNum d :: rest =>
      Ok (mono_reset b (V3 x y z) d, rest)
  | TLat Monoclinic :: _ => UB
  | TLat _ :: _ => Throw
  | _ => UB
  end.
(** MonoclinicBoundary.h:729-738. *)
Definition mono_save (b : mono) : list avalue := [AVec (mL b); ANum (mD b)].
(** MonoclinicBoundary.h:729-738, loading. *)
Definition mono_load (feq : R -> R -> bool) (a : list avalue) (b : mono)
  : outcome (mono * list avalue) :=
  match a with
  | AVec l :: ANum d :: rest =>
      let b := mono_reset b l d in
      if mono_isValid feq b then Ok (b, rest) else Throw
  | _ => UB
  end.
(** MonoclinicBoundary.cpp:192-209; bcast, 211-227, has the same effect on the
    processors other than the root. *)
Definition mono_send (b : mono) : vec3 R * R := (mL b, mD b).
(** MonoclinicBoundary.cpp:200-209. *)
Definition mono_recv (msg : vec3 R * R) (b : mono) : mono := setMonoclinic b msg.1 msg.2.

(** Set calls available to a client (MonoclinicBoundary.h:60, 67). *)
Inductive mono_op := SetMono (l : vec3 R) (d : R) | SetMonoOrtho (l : vec3 R).
(** MonoclinicBoundary.cpp:50-65. *)
Definition mono_step (b : mono) (o : mono_op) : mono :=
  match o with SetMono l d => setMonoclinic b l d | SetMonoOrtho l => setMonoOrthorhombic b l end.
