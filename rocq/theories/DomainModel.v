(** Model of DdMd::Domain: the grid of processors. *)
From Verif Require Import Base Vec3.
From Coq Require Import Reals.
Local Open Scope Z_scope.

(** Util::Grid (src/util is an empty submodule; behaviour as documented): row-major
    ranks, position is the inverse of rank, shift wraps one coordinate into the grid
    and returns the number of periods. *)
Definition grid_rank (d p : vec3 Z) : Z := vz p + vz d * (vy p + vy d * vx p).
(** Util::Grid::position (util, documented), used in Domain.cpp:148. *)
Definition grid_position (d : vec3 Z) (r : Z) : vec3 Z :=
  V3 (r / (vy d * vz d)) ((r mod (vy d * vz d)) / vz d) ((r mod (vy d * vz d)) mod vz d).
(** Util::Grid::shift (util, documented), used in Domain.cpp:171. *)
Definition grid_shift (dim c : Z) : Z * Z :=
  let s := if 0 <=? c then Z.quot c dim else -1 + Z.quot (c + 1) dim in
  (s, c - s * dim).

(** Domain.h:176-200: members set by initialize.  The tables are indexed by axis and
    transfer direction. *)
Record domain := Domain {
  dDims : vec3 Z;         (* gridDimensions_ *)
  dRank : Z;              (* gridRank_ *)
  dCoords : vec3 Z;       (* gridCoordinates_ *)
  dShift : nat -> nat -> Z;   (* shift_ *)
  dSource : nat -> nat -> Z;  (* sourceRanks_ *)
  dDest : nat -> nat -> Z     (* destRanks_ *)
}.

(** Assignment to an element of an FMatrix member, Domain.cpp:171-180. *)
Definition tab_set (t : nat -> nat -> Z) (i j : nat) (z : Z) : nat -> nat -> Z :=
  fun a b => if (Nat.eqb a i && Nat.eqb b j)%bool then z else t a b.

(** Body of the loops Domain.cpp:152-181, for axis [i] and direction [j].  All
    directions are periodic (145-147), so the else branch is dead. *)
Definition domain_link (D : domain) (i j : nat) : domain :=
  let k := match j with 0%nat => 1 | _ => -1 end in
  let jp := match j with 0%nat => 1%nat | _ => 0%nat end in
  let '(s, c) := grid_shift (vget (dDims D) i) (vget (dCoords D) i + k) in
  let src := grid_rank (dDims D) (vset (dCoords D) i c) in
  Domain (dDims D) (dRank D) (dCoords D)
         (tab_set (dShift D) i j s) (tab_set (dSource D) i j src) (tab_set (dDest D) i jp src).

(** Domain.cpp:121-185 (initialize); [rank] is the rank of this processor in a
    communicator of [commSize] processors. *)
Definition domain_initialize (dims : vec3 Z) (commSize rank : Z) : outcome domain :=
  if (vx dims <=? 0) || (vy dims <=? 0) || (vz dims <=? 0) then Throw
  else if negb (vx dims * vy dims * vz dims =? commSize) then Throw
  else
    let D0 := Domain dims rank (grid_position dims rank)
                     (fun _ _ => 0) (fun _ _ => -1) (fun _ _ => -1) in
    Ok (fold_left (fun D ij => domain_link D ij.1 ij.2)
                  [(0, 0); (0, 1); (1, 0); (1, 1); (2, 0); (2, 1)]%nat D0).

Local Open Scope R_scope.

(** Domain.cpp:190-205. *)
Definition domainBound (D : domain) (i j : nat) : R :=
  let dL := 1 / IZR (vget (dDims D) i) in
  (IZR (vget (dCoords D) i) + INR j) * dL.

(** int(x): conversion of a floating point number to int truncates toward zero.  Used in Domain.cpp:219. *)
Definition Rtrunc (x : R) : Z :=
  if Rle_dec 0 x then (up x - 1)%Z else (1 - up (- x))%Z.

(** Domain.cpp:210-233: grid coordinate along one axis; the test and the throw. *)
Definition owner_axis (dim : Z) (x : R) : outcome Z :=
  let dL := 1 / IZR dim in
  let r := Rtrunc (x / dL) in
  if ((r <? 0) || (r >=? dim))%Z then Throw else Ok r.
(** Domain.cpp:208-229. *)
Definition ownerRank (D : domain) (pos : vec3 R) : outcome Z :=
  let? r0 := owner_axis (vx (dDims D)) (vx pos) in
  let? r1 := owner_axis (vy (dDims D)) (vy pos) in
  let? r2 := owner_axis (vz (dDims D)) (vz pos) in
  Ok (grid_rank (dDims D) (V3 r0 r1 r2)).

(** Domain.cpp:238-256. *)
Definition in_axis (D : domain) (i : nat) (x : R) : bool :=
  let dL := 1 / IZR (vget (dDims D) i) in
  let c := IZR (vget (dCoords D) i) in
  if Rlt_dec x (c * dL) then false
  else if Rge_dec x ((c + 1) * dL) then false else true.
(** Domain.cpp:234-256. *)
Definition isInDomain (D : domain) (pos : vec3 R) : bool :=
  in_axis D 0 (vx pos) && in_axis D 1 (vy pos) && in_axis D 2 (vz pos).
