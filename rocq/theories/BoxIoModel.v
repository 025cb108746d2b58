(** Model of the three ways an OrthorhombicBoundary is written and read back: stream
    operators, archive, MPI. *)
From Verif Require Import Base Vec3 OrthoModel.
From Coq Require Import Reals.
Local Open Scope R_scope.

(** A text stream as a list of tokens.  OrthorhombicBoundary.cpp:157-204. *)
Inductive token := TLat (lat : lattice) | TNum (x : R).

Section Text.
  (** What is left of a number after printing it with 12 digits (Util::Dbl, operator
      << of Util::Vector) and reading it again. *)
  Variable rnd : R -> R.

  (** OrthorhombicBoundary.cpp:188-203. *)
  Definition ortho_out (b : ortho) : list token :=
    TLat (oLat b) ::
    match oLat b with
    | Orthorhombic => [TNum (rnd (vx (oLen b))); TNum (rnd (vy (oLen b))); TNum (rnd (vz (oLen b)))]
    | Tetragonal => [TNum (rnd (vx (oLen b))); TNum (rnd (vz (oLen b)))]
    | Cubic => [TNum (rnd (vx (oLen b)))]
    | _ => []
    end.
End Text.

(** OrthorhombicBoundary.cpp:157-183.  A stream that does not parse is modelled as
    [UB] (the C++ stream would be left in its fail state with garbage values). *)
Definition ortho_in (ts : list token) (b : ortho) : outcome (ortho * list token) :=
  match ts with
  | TLat Orthorhombic :: TNum x :: TNum y :: TNum z :: rest =>
      Ok (ortho_reset b (V3 x y z) Orthorhombic, rest)
  | TLat Tetragonal :: TNum a :: TNum bc :: rest =>
      Ok (ortho_reset b (V3 a bc bc) Tetragonal, rest)
  | TLat Cubic :: TNum a :: rest => Ok (ortho_reset b (V3 a a a) Cubic, rest)
  | TLat Monoclinic :: _ | TLat OtherLattice :: _ => Throw
  | _ => UB
  end.

(** An archive as a list of values.  OrthorhombicBoundary.h:642-654. *)
Inductive avalue := AVec (v : vec3 R) | ANum (x : R) | AVecs (m : vec3 (vec3 R)) | ALat (l : lattice).

(** OrthoRegion.h:78-86 and OrthorhombicBoundary.h:642-654, saving. *)
Definition ortho_save (b : ortho) : list avalue :=
  [AVec (oMin b); AVec (oMax b); AVec (oLen b); AVec (oHalf b); ANum (oVol b);
   AVecs (oBrav b); AVecs (oRecip b); AVec (oInv b); ANum (oMinLen b); ALat (oLat b)].

(** The same, loading: isValid throws if the data are inconsistent.  OrthorhombicBoundary.h:651-653. *)
Definition ortho_load (feq : R -> R -> bool) (a : list avalue) : outcome (ortho * list avalue) :=
  match a with
  | AVec mn :: AVec mx :: AVec ln :: AVec hf :: ANum vl :: AVecs br :: AVecs rc :: AVec iv ::
    ANum ml :: ALat lt :: rest =>
      let b := Ortho mn mx ln hf vl iv ml br rc lt in
      if ortho_isValid feq b then Ok (b, rest) else Throw
  | _ => UB
  end.

(** OrthorhombicBoundary.cpp:209-215 (send) and 217-224 (recv); bcast, 226-239, has
    the same effect on the processors other than the root. *)
Definition ortho_send (b : ortho) : vec3 R := oLen b.
(** OrthorhombicBoundary.cpp:217-224. *)
Definition ortho_recv (msg : vec3 R) (b : ortho) : ortho := setOrthorhombic b msg.
