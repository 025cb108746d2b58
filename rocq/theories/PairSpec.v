(** Textbook pair potentials, and the ways a client can use the pair classes. *)
From Verif Require Import Base PairModel.
From Coq Require Import Reals.
Local Open Scope R_scope.

(** Lennard-Jones energy, truncated at [rc] and shifted to vanish there. *)
Definition LJ_formula (eps sig rc r : R) : R :=
  4 * eps * ((sig / r) ^ 12 - (sig / r) ^ 6) - 4 * eps * ((sig / rc) ^ 12 - (sig / rc) ^ 6).

(** Soft DPD repulsion. *)
Definition DPD_formula (eps sig r : R) : R := 1/2 * eps * (1 - r / sig) ^ 2.

Definition symmetric (t : tab) : Prop := forall i j, t i j = t j i.
Definition positive_tab (t : tab) : Prop := forall i j, 0 < t i j.

(** Calls that change parameters after initialisation. *)
Inductive pair_op :=
| SetEpsilon (i j : nat) (x : R)
| SetSigma (i j : nat) (x : R)
| SetByName (name : pname) (i j : nat) (x : R).

Definition lj_step (p : lj) (o : pair_op) : outcome lj :=
  match o with
  | SetEpsilon i j x => lj_setEpsilon p i j x
  | SetSigma i j x => lj_setSigma p i j x
  | SetByName nm i j x => lj_set p nm i j x
  end.
(** WcaPair inherits setEpsilon and setSigma. *)
Definition wca_step (p : lj) (o : pair_op) : outcome lj :=
  match o with
  | SetEpsilon i j x => lj_setEpsilon p i j x
  | SetSigma i j x => lj_setSigma p i j x
  | SetByName nm i j x => wca_set p nm i j x
  end.
Definition dpd_step (p : dpd) (o : pair_op) : outcome dpd :=
  match o with
  | SetEpsilon i j x => dpd_setEpsilon p i j x
  | SetSigma i j x => dpd_setSigma p i j x
  | SetByName nm i j x => dpd_set p nm i j x
  end.

(** Construction, setNAtomType, reading of parameters, then any set calls. *)
Definition lj_life (junk : lj) (n : nat) (eps sig cut : tab) (ops : list pair_op) : outcome lj :=
  let? p := lj_setNAtomType (lj_new junk) n in
  let? p := lj_read p eps sig cut in run lj_step p ops.
Definition wca_life (junk : lj) (n : nat) (eps sig : tab) (ops : list pair_op) : outcome lj :=
  let? p := lj_setNAtomType (lj_new junk) n in
  let? p := wca_read p eps sig in run wca_step p ops.
Definition dpd_life (junk : dpd) (n : nat) (eps sig : tab) (ops : list pair_op) : outcome dpd :=
  let? p := dpd_setNAtomType (dpd_new junk) n in
  let? p := dpd_read p eps sig in run dpd_step p ops.
