(** One axis of the cell index in IEEE binary64 (round to nearest even). *)
From Coq Require Import ZArith Reals.
From Flocq Require Import Core IEEE754.BinarySingleNaN IEEE754.Binary IEEE754.Bits.
From Verif Require Import DomainModel.

(** The double 1.0.  The literal 1.0 of the code (OrthorhombicBoundary.cpp:85). *)
Definition b64_one : binary64 := b64_of_bits 4607182418800017408.
(** CellList.h:367-380: the coordinate int(g*n) of a cell along one axis for the generalized coordinate [g]; [n] is
    invCellWidths_, the number of cells as a double (CellList.cpp:74). *)
Definition fcell_gen (n g : binary64) : Z := Rtrunc (B2R 53%Z 1024%Z (b64_mult mode_NE g n)).
(** CellList.h:363-366 with OrthorhombicBoundary.h:593 and OrthorhombicBoundary.cpp:85: the generalized coordinate is
    x*(1.0/len). *)
Definition fcell (len n x : binary64) : Z := fcell_gen n (b64_mult mode_NE x (b64_div mode_NE b64_one len)).
