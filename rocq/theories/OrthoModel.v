(** Model of Simp::OrthorhombicBoundary (src/simp/boundary), over real numbers. *)
From Verif Require Import Base Vec3.
From Coq Require Import Reals.
Local Open Scope R_scope.

(** simp/crystal/LatticeSystem.h: the lattice systems these classes use. *)
Inductive lattice := Cubic | Tetragonal | Orthorhombic | Monoclinic | OtherLattice.

(** OrthoRegion.h:33-45 and OrthorhombicBoundary.h:326-346: all members. *)
Record ortho := Ortho {
  oMin : vec3 R;  oMax : vec3 R;  oLen : vec3 R;  oHalf : vec3 R;  oVol : R;
  oInv : vec3 R;  oMinLen : R;
  oBrav : vec3 (vec3 R);  oRecip : vec3 (vec3 R);
  oLat : lattice
}.

(** Util::Vector::Zero (util, documented). *)
Definition vzero : vec3 R := V3 0 0 0.

(** Set the diagonal element [i][i] for i = 0, 1, 2 (loop bodies of
    OrthorhombicBoundary.cpp:29-35 and 84-88). *)
Definition set_diag (m : vec3 (vec3 R)) (f : nat -> R) : vec3 (vec3 R) :=
  V3 (vset (vx m) 0 (f 0%nat)) (vset (vy m) 1 (f 1%nat)) (vset (vz m) 2 (f 2%nat)).

(** OrthorhombicBoundary.cpp:36-41 and 90-95. *)
Definition min_length (l : vec3 R) : R :=
  let m := vx l in
  let m := if Rlt_dec (vy l) m then vy l else m in
  if Rlt_dec (vz l) m then vz l else m.

(** OrthoRegion.cpp:23-32 and OrthorhombicBoundary.cpp:25-42 (constructors). *)
Definition ortho_init : ortho :=
  let ones := V3 1 1 1 in
  Ortho vzero ones ones (V3 (1/2) (1/2) (1/2)) 1
        (V3 (1/1) (1/1) (1/1)) (min_length ones)
        (set_diag (V3 vzero vzero vzero) (vget ones))
        (set_diag (V3 vzero vzero vzero) (fun i => 2 * PI / vget ones i))
        Orthorhombic.

(** OrthoRegion.cpp:37-45 (resetRegion) and OrthorhombicBoundary.cpp:81-97 (reset),
    after maxima_ and lattice_ have been assigned. *)
Definition ortho_reset (b : ortho) (maxima : vec3 R) (lat : lattice) : ortho :=
  let sub i := vget maxima i - vget (oMin b) i in
  let len := V3 (sub 0%nat) (sub 1%nat) (sub 2%nat) in
  Ortho (oMin b) maxima len (vmap (fun x => (1/2) * x) len) (vx len * vy len * vz len)
        (vmap (fun x => 1 / x) len) (min_length len)
        (set_diag (oBrav b) (vget len))
        (set_diag (oRecip b) (fun i => 2 * PI / vget len i)) lat.

(** OrthorhombicBoundary.cpp:47-52, 57-64, 69-76. *)
Definition setOrthorhombic (b : ortho) (l : vec3 R) : ortho := ortho_reset b l Orthorhombic.
(** OrthorhombicBoundary.cpp:57-64. *)
Definition setTetragonal (b : ortho) (a bc : R) : ortho := ortho_reset b (V3 a bc bc) Tetragonal.
(** OrthorhombicBoundary.cpp:69-76. *)
Definition setCubic (b : ortho) (a : R) : ortho := ortho_reset b (V3 a a a) Cubic.

(** One axis of OrthorhombicBoundary.h:447-461 (shift with counter); without the
    counter the arithmetic is that of 430-442. *)
Definition shift_axis (mn mx len r : R) (s : Z) : R * Z :=
  if Rge_dec r mx then (r - len, (s + 1)%Z)
  else if Rlt_dec r mn then (r + len, (s - 1)%Z) else (r, s).
(** One axis of OrthorhombicBoundary.h:430-442. *)
Definition shift1_axis (mn mx len r : R) : R :=
  if Rge_dec r mx then r - len else if Rlt_dec r mn then r + len else r.

(** OrthorhombicBoundary.h:447-461.  The three axes are independent, so the loop is
    written out. *)
Definition shift (b : ortho) (r : vec3 R) (s : vec3 Z) : vec3 R * vec3 Z :=
  let f i := shift_axis (vget (oMin b) i) (vget (oMax b) i) (vget (oLen b) i) (vget r i) (vget s i) in
  (V3 (f 0%nat).1 (f 1%nat).1 (f 2%nat).1, V3 (f 0%nat).2 (f 1%nat).2 (f 2%nat).2).
(** OrthorhombicBoundary.h:430-442. *)
Definition shift1 (b : ortho) (r : vec3 R) : vec3 R :=
  let f i := shift1_axis (vget (oMin b) i) (vget (oMax b) i) (vget (oLen b) i) (vget r i) in
  V3 (f 0%nat) (f 1%nat) (f 2%nat).

(** OrthorhombicBoundary.h:466-467. *)
Definition applyShift (b : ortho) (r : vec3 R) (i : nat) (t : Z) : vec3 R :=
  vset r i (vget r i + IZR t * vget (oLen b) i).

(** OrthorhombicBoundary.h:472-484 and 489-504. *)
Definition shiftGen (r : vec3 R) (s : vec3 Z) : vec3 R * vec3 Z :=
  let f i := shift_axis 0 1 1 (vget r i) (vget s i) in
  (V3 (f 0%nat).1 (f 1%nat).1 (f 2%nat).1, V3 (f 0%nat).2 (f 1%nat).2 (f 2%nat).2).
(** OrthorhombicBoundary.h:472-484. *)
Definition shiftGen1 (r : vec3 R) : vec3 R :=
  let f i := shift1_axis 0 1 1 (vget r i) in V3 (f 0%nat) (f 1%nat) (f 2%nat).

(** One axis of OrthorhombicBoundary.h:509-532: separation and translation. *)
Definition sep_axis (half len x1 x2 : R) : R * Z :=
  let dr := x1 - x2 in
  if Rgt_dec (Rabs dr) half then
    if Rgt_dec dr 0 then (dr - len, (-1)%Z) else (dr + len, 1%Z)
  else (dr, 0%Z).

(** The three overloads of distanceSq: OrthorhombicBoundary.h:509-532 (returns the
    translation), 537-555 (value only), 561-577 (returns the separation). *)
Definition sep (b : ortho) (r1 r2 : vec3 R) (i : nat) : R * Z :=
  sep_axis (vget (oHalf b) i) (vget (oLen b) i) (vget r1 i) (vget r2 i).
(** OrthorhombicBoundary.h:509-532. *)
Definition distanceSq_shift (b : ortho) (r1 r2 : vec3 R) : R * vec3 Z :=
  let f := sep b r1 r2 in
  (0 + (f 0%nat).1 * (f 0%nat).1 + (f 1%nat).1 * (f 1%nat).1 + (f 2%nat).1 * (f 2%nat).1,
   V3 (f 0%nat).2 (f 1%nat).2 (f 2%nat).2).
(** OrthorhombicBoundary.h:537-555. *)
Definition distanceSq (b : ortho) (r1 r2 : vec3 R) : R :=
  let f := sep b r1 r2 in
  0 + (f 0%nat).1 * (f 0%nat).1 + (f 1%nat).1 * (f 1%nat).1 + (f 2%nat).1 * (f 2%nat).1.
(** OrthorhombicBoundary.h:561-577. *)
Definition distanceSq_dr (b : ortho) (r1 r2 : vec3 R) : R * vec3 R :=
  let f := sep b r1 r2 in
  ((f 0%nat).1 * (f 0%nat).1 + (f 1%nat).1 * (f 1%nat).1 + (f 2%nat).1 * (f 2%nat).1,
   V3 (f 0%nat).1 (f 1%nat).1 (f 2%nat).1).

(** OrthorhombicBoundary.h:588-607. *)
Definition cartToGen (b : ortho) (r : vec3 R) : vec3 R :=
  V3 (vx r * vx (oInv b)) (vy r * vy (oInv b)) (vz r * vz (oInv b)).
(** OrthorhombicBoundary.h:600-607. *)
Definition genToCart (b : ortho) (r : vec3 R) : vec3 R :=
  V3 (vx r * vx (oLen b)) (vy r * vy (oLen b)) (vz r * vz (oLen b)).

(** OrthorhombicBoundary.h:612-635. *)
Definition isMinImageGen (dr : vec3 R) : bool :=
  if Rgt_dec (Rabs (vx dr)) (1/2) then false else
  if Rgt_dec (Rabs (vy dr)) (1/2) then false else
  if Rgt_dec (Rabs (vz dr)) (1/2) then false else true.
(** OrthorhombicBoundary.h:626-635. *)
Definition isMinImageCart (b : ortho) (dr : vec3 R) : bool :=
  if Rgt_dec (Rabs (vx dr)) (vx (oHalf b)) then false else
  if Rgt_dec (Rabs (vy dr)) (vy (oHalf b)) then false else
  if Rgt_dec (Rabs (vz dr)) (vz (oHalf b)) then false else true.

(** Util::Vector::dot (util, documented). *)
Definition dot (u v : vec3 R) : R := vx u * vx v + vy u * vy v + vz u * vz v.

(** OrthoRegion.cpp:50-78 and OrthorhombicBoundary.cpp:115-152.  [feq] is
    Util::feq, equality up to a tolerance, a parameter here. *)
Section Valid.
  Variable feq : R -> R -> bool.
  (** OrthoRegion.cpp:50-78. *)
  Definition region_isValid (b : ortho) : bool :=
    forallb (fun i =>
      (if Rle_dec (vget (oMax b) i) (vget (oMin b) i) then false else true) &&
      feq (vget (oLen b) i) (vget (oMax b) i - vget (oMin b) i) &&
      feq (vget (oHalf b) i) ((1/2) * vget (oLen b) i)) [0; 1; 2]%nat &&
    feq (oVol b) (vx (oLen b) * vy (oLen b) * vz (oLen b)).
  (** OrthorhombicBoundary.cpp:115-152. *)
  Definition ortho_isValid (b : ortho) : bool :=
    region_isValid b &&
    forallb (fun i =>
      feq (vget (oMin b) i) 0 &&
      feq (vget (oLen b) i * vget (oInv b) i) 1 &&
      feq (vget (oLen b) i) (vget (vget (oBrav b) i) i) &&
      forallb (fun j =>
        let d := dot (vget (oBrav b) i) (vget (oRecip b) j) in
        if Nat.eqb i j then feq d (2 * PI)
        else feq d 0 && feq (vget (vget (oBrav b) i) j) 0 &&
             feq (vget (vget (oRecip b) i) j) 0) [0; 1; 2]%nat) [0; 1; 2]%nat.
End Valid.

(** The calls by which a client sets the box (OrthorhombicBoundary.h:57-72). *)
Inductive box_op := SetOrtho (l : vec3 R) | SetTetra (a bc : R) | SetCub (a : R).
(** OrthorhombicBoundary.cpp:47-76. *)
Definition box_step (b : ortho) (o : box_op) : ortho :=
  match o with
  | SetOrtho l => setOrthorhombic b l
  | SetTetra a bc => setTetragonal b a bc
  | SetCub a => setCubic b a
  end.
