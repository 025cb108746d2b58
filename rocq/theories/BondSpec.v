(** Textbook bond potentials and lifetimes of bond objects. *)
From Verif Require Import Base BondModel.
From Coq Require Import Reals.
Local Open Scope R_scope.

Definition harmonic_formula (k l r : R) : R := 1/2 * k * (r - l) ^ 2.
(** FENE below [rl]. *)
Definition fene_formula (k r0 r : R) : R := - (1/2) * k * r0 ^ 2 * ln (1 - (r / r0) ^ 2).
(** Minus its derivative. *)
Definition fene_tension (k r0 r : R) : R := k * r / (1 - (r / r0) ^ 2).

(** set(name, type, value) calls. *)
Record bond_op := BondSet { bo_name : bname; bo_type : nat; bo_value : R }.

Definition hb_life (n : nat) (k l : ptab) (ops : list bond_op) : outcome hbond :=
  let? b := hb_setN hb_new n in let? b := hb_read b k l in
  run (fun b o => hb_set b (bo_name o) (bo_type o) (bo_value o)) b ops.
Definition l0_life (n : nat) (k : ptab) (ops : list bond_op) : outcome l0bond :=
  let? b := l0_setN l0_new n in let? b := l0_read b k in
  run (fun b o => l0_set b (bo_name o) (bo_type o) (bo_value o)) b ops.
Definition fene_life (junk : R) (n : nat) (k r0 : ptab) (fc : R) (ops : list bond_op) : outcome fene :=
  let? b := fene_setN (fene_new junk) n in let? b := fene_read b k r0 fc in
  run (fun b o => fene_set b (bo_name o) (bo_type o) (bo_value o)) b ops.
