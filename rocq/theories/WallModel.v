(** Model of the wall potentials Simp::SlitExternal, BoxExternal and OrthoBoxExternal
    (src/simp/interaction/external), over real numbers.  The boundary is represented by its lengths
    (OrthorhombicBoundary::lengths()). *)
From Verif Require Import Base Vec3 BoxSpec.
From Coq Require Import Reals.
Local Open Scope R_scope.

(** SlitExternal.h:187-208, BoxExternal.h:189-210, OrthoBoxExternal.h:193-217 (indConfine_ is a separate
    argument, nAtomType_ and boundaryPtr_ are checked once in readParameters and then unused). *)
Record wall := Wall { wEps : R; wSig : R; wCb : R; wCut : R; wCoeff : R }.
(** SlitExternal.cpp:92-111, BoxExternal.cpp:92-111, OrthoBoxExternal.cpp:105-117. *)
Definition wall_read (eps sig cut : R) : wall :=
  let cb := sig * sig * sig in
  Wall eps sig cb cut (4 * eps * acos (-1) / 45 * (7 / 10) * cb).

(** Parameter names; [WOther] is any other string.  SlitExternal.cpp:147-180, BoxExternal.cpp:148-180. *)
Inductive wname := WEps | WSig | WCut | WOther.
(** SlitExternal.cpp:147-162. *)
Definition slit_set (w : wall) (nm : wname) (x : R) : outcome wall :=
  let upd eps sig cut :=
    let cb := sig * sig * sig in Ok (Wall eps sig cb cut (4 * eps * acos (-1) / 45 * (7 / 10) * cb)) in
  match nm with
  | WEps => upd x (wSig w) (wCut w)
  | WSig => upd (wEps w) x (wCut w)
  | WCut => upd (wEps w) (wSig w) x
  | WOther => Throw
  end.
(** BoxExternal.cpp:148-161, OrthoBoxExternal.cpp:161-174. *)
Definition box_set (w : wall) (nm : wname) (x : R) : outcome wall :=
  match nm with
  | WEps => Ok (Wall x (wSig w) (wCb w) (wCut w) (wCoeff w))
  | WSig => Ok (Wall (wEps w) x (wCb w) (wCut w) (wCoeff w))
  | WCut => Ok (Wall (wEps w) (wSig w) (wCb w) x (wCoeff w))
  | WOther => Throw
  end.
(** SlitExternal.cpp:167-182, BoxExternal.cpp:166-181, OrthoBoxExternal.cpp:179-194. *)
Definition wall_get (w : wall) (nm : wname) : outcome R :=
  match nm with WEps => Ok (wEps w) | WSig => Ok (wSig w) | WCut => Ok (wCut w) | WOther => Throw end.
(** setExternalParameter after initialization: SlitExternal.cpp:79-87, BoxExternal.cpp:79-87, OrthoBoxExternal.cpp:82-90. *)
Definition wall_setExternal (w : wall) (x : R) : wall := Wall x (wSig w) (wCb w) (wCut w) (wCoeff w).

(** SlitExternal.h:220-231, BoxExternal.h:222-233, OrthoBoxExternal.h:229-240. *)
Definition wall_energy (w : wall) (d : R) : R :=
  if Rlt_dec d (wCut w) then
    let r3i := d * d * d in
    let r3i := if Rlt_dec r3i (129615 / 1000000 * wCb w) then 129615 / 1000000 * wCb w else r3i in
    let r3i := wCb w / r3i in
    wCoeff w * (r3i * (r3i * r3i - 75 / 10) + 7905694 / 1000000)
  else 0.
(** SlitExternal.h:247-258, BoxExternal.h:255-266, OrthoBoxExternal.h:262-273. *)
Definition wall_force (w : wall) (d : R) : R :=
  if Rlt_dec d (wCut w) then
    let r3i := d * d * d in
    let r3i := if Rlt_dec r3i (129615 / 1000000 * wCb w) then 129615 / 1000000 * wCb w else r3i in
    let r3i := wCb w / r3i in
    wCoeff w * (9 * r3i * r3i - 225 / 10) * r3i / d
  else 0.

(** One iteration of the loop of BoxExternal.h:245-247; SlitExternal.h:238-241. *)
Definition axis_energy (w : wall) (L x : R) : R :=
  let halfL := L * (1 / 2) in
  let d := if Rgt_dec x halfL then halfL + halfL - x else x in wall_energy w d.
(** One iteration of the loop of BoxExternal.h:279-287; SlitExternal.h:266-276. *)
Definition axis_force (w : wall) (L x : R) : R :=
  let halfL := L * (1 / 2) in
  if Rgt_dec x halfL then - wall_force w (halfL + halfL - x) else wall_force w x.

(** SlitExternal.h:236-242. *)
Definition slit_energy (w : wall) (L p : vec3 R) : R := axis_energy w (vz L) (vz p).
(** SlitExternal.h:263-277. *)
Definition slit_getForce (w : wall) (L p : vec3 R) : vec3 R := V3 0 0 (axis_force w (vz L) (vz p)).
(** BoxExternal.h:238-250. *)
Definition box_energy (w : wall) (L p : vec3 R) : R :=
  0 + axis_energy w (vx L) (vx p) + axis_energy w (vy L) (vy p) + axis_energy w (vz L) (vz p).
(** BoxExternal.h:271-289. *)
Definition box_getForce (w : wall) (L p : vec3 R) : vec3 R :=
  V3 (axis_force w (vx L) (vx p)) (axis_force w (vy L) (vy p)) (axis_force w (vz L) (vz p)).
(** OrthoBoxExternal.h:245-257; [k] is indConfine_, the loop runs over axes k..2. *)
Definition ortho_energy (k : nat) (w : wall) (L p : vec3 R) : R :=
  let e := 0 in
  let e := if (k <=? 0)%nat then e + axis_energy w (vx L) (vx p) else e in
  let e := if (k <=? 1)%nat then e + axis_energy w (vy L) (vy p) else e in
  if (k <=? 2)%nat then e + axis_energy w (vz L) (vz p) else e.
(** OrthoBoxExternal.h:278-297. *)
Definition ortho_getForce (k : nat) (w : wall) (L p : vec3 R) : vec3 R :=
  V3 (if (k <=? 0)%nat then axis_force w (vx L) (vx p) else 0)
     (if (k <=? 1)%nat then axis_force w (vy L) (vy p) else 0)
     (if (k <=? 2)%nat then axis_force w (vz L) (vz p) else 0).
