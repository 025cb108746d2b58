(** OrthorhombicBoundary::shift in IEEE binary64 (round to nearest even). *)
From Coq Require Import ZArith.
From Flocq Require Import Core IEEE754.BinarySingleNaN IEEE754.Binary IEEE754.Bits.

(** One axis of OrthorhombicBoundary.h:430-442 with minima_[i] = 0 and maxima_[i] =
    lengths_[i] = len (which hold after any set call: [OrthoProofs.owf_box]). *)
Definition fshift (len r : binary64) : binary64 :=
  match b64_compare r len with
  | Some Gt | Some Eq => b64_minus mode_NE r len
  | _ => match b64_compare r (B754_zero 53%Z 1024%Z false) with
         | Some Lt => b64_plus mode_NE r len
         | _ => r
         end
  end.
