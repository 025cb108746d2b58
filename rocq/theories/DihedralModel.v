(** Model of the dihedral interactions Simp::CosineDihedral and FourierDihedral
    (src/simp/interaction/dihedral), over real numbers. *)
From Verif Require Import Base Vec3 BoxSpec BondModel AngleModel.
From Coq Require Import Reals.
Local Open Scope R_scope.

(** 1.0E-10.  Torsion.h:82, 89, TorsionForce.h:91, 99. *)
Definition tor_eps : R := 1 / 10 ^ 10.

(** Torsion.h:74-96: [None] is status 1 (degenerate), [Some] the value of cosPhi. *)
Definition tor_angle (b1 b2 b3 : vec3 R) : option R :=
  let v1 := cross b1 b2 in
  let d1 := normSq v1 in
  if Rlt_dec d1 tor_eps then None else
  let d1 := sqrt d1 in
  let v2 := cross b2 b3 in
  let d2 := normSq v2 in
  if Rlt_dec d2 tor_eps then None else
  let d2 := sqrt d2 in
  Some (vdot v1 v2 / (d1 * d2)).

(** TorsionForce.h:82-123: cosPhi, d1, d2, d3. *)
Definition tor_derivs (b1 b2 b3 : vec3 R) : option (R * vec3 R * vec3 R * vec3 R) :=
  let u1 := cross b1 b2 in
  let r1 := normSq u1 in
  if Rlt_dec r1 tor_eps then None else
  let r1 := sqrt r1 in
  let u1 := vdivs u1 r1 in
  let u2 := cross b2 b3 in
  let r2 := normSq u2 in
  if Rlt_dec r2 tor_eps then None else
  let r2 := sqrt r2 in
  let u2 := vdivs u2 r2 in
  let c := vdot u1 u2 in
  let t1 := vscale (1 / r1) (vadd (vscale (- c) u1) u2) in
  let t2 := vscale (1 / r2) (vadd (vscale (- c) u2) u1) in
  Some (c, cross b2 t1, vadd (cross t1 b1) (cross b3 t2), cross t2 b2).

(** CosineDihedral.h:148-154. *)
Record cdihedral := CD { cdK : ptab; cdN : nat }.
(** CosineDihedral.cpp:18-25. *)
Definition cd_new : cdihedral := CD (fun _ => 0) 0.
(** CosineDihedral.cpp:47-53; MaxNDihedralType = 8. *)
Definition cd_setN (d : cdihedral) (n : nat) : outcome cdihedral :=
  if (8 <? n)%nat then Throw else Ok (CD (cdK d) n).
(** CosineDihedral.cpp:58-64. *)
Definition cd_read (d : cdihedral) (k : ptab) : outcome cdihedral :=
  if (cdN d =? 0)%nat then Throw else Ok (CD (pread (cdN d) (cdK d) k) (cdN d)).
(** CosineDihedral.cpp:90-97 with name = "kappa" (other names throw). *)
Definition cd_set (d : cdihedral) (i : nat) (x : R) : outcome cdihedral :=
  if (i <? 8)%nat then Ok (CD (pset (cdK d) i x) (cdN d)) else UB.
(** CosineDihedral.cpp:102-111 with name = "kappa". *)
Definition cd_get (d : cdihedral) (i : nat) : outcome R := if (i <? 8)%nat then Ok (cdK d i) else UB.
(** CosineDihedral.h:163-175. *)
Definition cd_energy (d : cdihedral) (b1 b2 b3 : vec3 R) (i : nat) : R :=
  match tor_angle b1 b2 b3 with Some c => cdK d i * (1 + c) | None => 0 end.
(** CosineDihedral.h:184-202. *)
Definition cd_force (d : cdihedral) (b1 b2 b3 : vec3 R) (i : nat) : vec3 (vec3 R) :=
  match tor_derivs b1 b2 b3 with
  | Some (c, d1, d2, d3) => V3 (vscale (cdK d i) d1) (vscale (cdK d i) d2) (vscale (cdK d i) d3)
  | None => V3 (V3 0 0 0) (V3 0 0 0) (V3 0 0 0)
  end.

(** FourierDihedral.h:167-206. *)
Record coeffs := CF {
  k0 : R;  k1 : R;  k2 : R;  k3 : R;  k4 : R;
  a0 : R;  a1 : R;  a2 : R;  a3 : R;  a4 : R;  g2 : R;  g3 : R;  g4 : R
}.
(** Constructor of CoeffList, FourierDihedral.h:192-203. *)
Definition cf_new : coeffs := CF 0 0 0 0 0 0 0 0 0 0 0 0 0.
(** FourierDihedral.h:208-219. *)
Definition cf_init (p : coeffs) : coeffs :=
  let a0 := k0 p - k2 p + k4 p in
  let a1 := k1 p - 3 * k3 p in
  let a2 := 2 * k2 p - 8 * k4 p in
  let a3 := 4 * k3 p in
  let a4 := 8 * k4 p in
  CF (k0 p) (k1 p) (k2 p) (k3 p) (k4 p) a0 a1 a2 a3 a4 (2 * a2) (3 * a3) (4 * a4).
(** FourierDihedral.cpp:231-235, operator >> : the five k are read. *)
Definition cf_input (p : coeffs) (k : R * R * R * R * R) : coeffs :=
  let '(x0, x1, x2, x3, x4) := k in
  CF x0 x1 x2 x3 x4 (a0 p) (a1 p) (a2 p) (a3 p) (a4 p) (g2 p) (g3 p) (g4 p).

(** FourierDihedral.h:146-152: coeffs_ (empty list: not allocated) and nDihedralType_. *)
Record fdihedral := FD { fdC : list coeffs; fdN : nat }.
(** FourierDihedral.cpp:21-24. *)
Definition fd_new : fdihedral := FD [] 0.
(** FourierDihedral.cpp:84-91; DArray::allocate throws if already allocated. *)
Definition fd_setN (d : fdihedral) (n : nat) : outcome fdihedral :=
  if (n =? 0)%nat then Throw else
  match fdC d with [] => Ok (FD (replicate n cf_new) n) | _ => Throw end.
(** FourierDihedral.cpp:96-105; [ks] are the values in the file. *)
Definition fd_read (d : fdihedral) (ks : list (R * R * R * R * R)) : outcome fdihedral :=
  if (fdN d =? 0)%nat then Throw else
  if negb (length (fdC d) =? fdN d)%nat then Throw else
  if negb (length ks =? fdN d)%nat then Throw else
  Ok (FD (map cf_init (zip_with cf_input (fdC d) ks)) (fdN d)).
(** FourierDihedral.cpp:172-193; [j] in 0..4 is the parameter "k0".."k4", any other name throws. *)
Definition cf_put (p : coeffs) (j : nat) (x : R) : coeffs :=
  cf_input p (if (j =? 0)%nat then x else k0 p, if (j =? 1)%nat then x else k1 p, if (j =? 2)%nat then x else k2 p,
              if (j =? 3)%nat then x else k3 p, if (j =? 4)%nat then x else k4 p).
(** FourierDihedral.cpp:172-193. *)
Definition fd_set (d : fdihedral) (j i : nat) (x : R) : outcome fdihedral :=
  let? p := aget (fdC d) i in
  if (4 <? j)%nat then Throw else
  let? c := aset (fdC d) i (cf_init (cf_put p j x)) in Ok (FD c (fdN d)).
(** FourierDihedral.cpp:198-220. *)
Definition fd_get (d : fdihedral) (j i : nat) : outcome R :=
  let? p := aget (fdC d) i in
  match j with 0 => Ok (k0 p) | 1 => Ok (k1 p) | 2 => Ok (k2 p) | 3 => Ok (k3 p) | 4 => Ok (k4 p) | _ => Throw end%nat.
(** FourierDihedral.h:255-270. *)
Definition fd_energy (d : fdihedral) (b1 b2 b3 : vec3 R) (i : nat) : outcome R :=
  match tor_angle b1 b2 b3 with
  | Some c => let? p := aget (fdC d) i in Ok (a0 p + c * (a1 p + c * (a2 p + c * (a3 p + c * a4 p))))
  | None => Ok 0
  end.
(** FourierDihedral.h:281-301. *)
Definition fd_force (d : fdihedral) (b1 b2 b3 : vec3 R) (i : nat) : outcome (vec3 (vec3 R)) :=
  match tor_derivs b1 b2 b3 with
  | Some (c, d1, d2, d3) =>
      let? p := aget (fdC d) i in
      let dEdC := a1 p + c * (g2 p + c * (g3 p + c * g4 p)) in
      Ok (V3 (vscale dEdC d1) (vscale dEdC d2) (vscale dEdC d3))
  | None => Ok (V3 (V3 0 0 0) (V3 0 0 0) (V3 0 0 0))
  end.

(** mcMd/potentials/dihedral/DihedralPotentialImpl.h:401-406 and
    ddMd/potentials/dihedral/DihedralPotentialImpl.h:406-419 (all atoms local): forces on the four atoms. *)
Definition dihedral_atom_forces (f : vec3 (vec3 R)) : vec3 R * vec3 R * vec3 R * vec3 R :=
  let z := V3 0 0 0 in
  (vx f, vadd (vsub z (vx f)) (vy f), vadd (vsub z (vy f)) (vz f), vsub z (vz f)).
