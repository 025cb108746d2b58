(** Model of the bond interactions Simp::HarmonicBond, HarmonicL0Bond, FeneBond and
    CompositeBond (src/simp/interaction/bond), over real numbers. *)
From Verif Require Import Base.
From Coq Require Import Reals.
Local Open Scope R_scope.

(** A double[MaxNBondType] member (HarmonicBond.h:159-162); indices are checked where used. *)
Definition ptab := nat -> R.
(** Assignment to an element, e.g. HarmonicBond.cpp:146, 149. *)
Definition pset (t : ptab) (i : nat) (x : R) : ptab := fun a => if Nat.eqb a i then x else t a.
(** Effect of readCArray(in, label, t, n) (util, documented): elements below [n] are read. *)
Definition pread (n : nat) (old new : ptab) : ptab := fun a => if (a <? n)%nat then new a else old a.

(** Parameter names of the bond classes; [BOther] is any other string.  HarmonicBond.cpp:143-170, FeneBond.cpp:192-230. *)
Inductive bname := BKappa | BLength | BR0 | BOther.

(** HarmonicBond.h:156-163. *)
Record hbond := HB { hbK : ptab; hbL : ptab; hbN : nat }.
(** HarmonicBond.cpp:19-27. *)
Definition hb_new : hbond := HB (fun _ => 0) (fun _ => 0) 0.
(** HarmonicBond.cpp:57-63; MaxNBondType = 8. *)
Definition hb_setN (b : hbond) (n : nat) : outcome hbond :=
  if (8 <? n)%nat then Throw else Ok (HB (hbK b) (hbL b) n).
(** HarmonicBond.cpp:68-73. *)
Definition hb_read (b : hbond) (k l : ptab) : outcome hbond :=
  if (hbN b =? 0)%nat then Throw else Ok (HB (pread (hbN b) (hbK b) k) (pread (hbN b) (hbL b) l) (hbN b)).
(** HarmonicBond.cpp:143-153. *)
Definition hb_set (b : hbond) (nm : bname) (i : nat) (x : R) : outcome hbond :=
  match nm with
  | BKappa => if (i <? 8)%nat then Ok (HB (pset (hbK b) i x) (hbL b) (hbN b)) else UB
  | BLength => if (i <? 8)%nat then Ok (HB (hbK b) (pset (hbL b) i x) (hbN b)) else UB
  | _ => Throw
  end.
(** HarmonicBond.cpp:158-170. *)
Definition hb_get (b : hbond) (nm : bname) (i : nat) : outcome R :=
  match nm with BKappa => Ok (hbK b i) | BLength => Ok (hbL b i) | _ => Throw end.
(** HarmonicBond.h:191-195. *)
Definition hb_energy (b : hbond) (rSq : R) (i : nat) : R :=
  let dl := sqrt rSq - hbL b i in 1/2 * hbK b i * dl * dl.
(** HarmonicBond.h:200-206. *)
Definition hb_forceOverR (b : hbond) (rSq : R) (i : nat) : R :=
  let r := sqrt rSq in let dl := hbL b i - r in hbK b i * dl / r.

(** HarmonicL0Bond.h:142-148. *)
Record l0bond := L0B { l0K : ptab; l0N : nat }.
(** HarmonicL0Bond.cpp:20-27. *)
Definition l0_new : l0bond := L0B (fun _ => 0) 0.
(** HarmonicL0Bond.cpp:55-61; MaxNBondType = 2. *)
Definition l0_setN (b : l0bond) (n : nat) : outcome l0bond :=
  if (2 <? n)%nat then Throw else Ok (L0B (l0K b) n).
(** HarmonicL0Bond.cpp:66-70. *)
Definition l0_read (b : l0bond) (k : ptab) : outcome l0bond :=
  if (l0N b =? 0)%nat then Throw else Ok (L0B (pread (l0N b) (l0K b) k) (l0N b)).
(** HarmonicL0Bond.cpp:109-116. *)
Definition l0_set (b : l0bond) (nm : bname) (i : nat) (x : R) : outcome l0bond :=
  match nm with
  | BKappa => if (i <? 2)%nat then Ok (L0B (pset (l0K b) i x) (l0N b)) else UB
  | _ => Throw
  end.
(** HarmonicL0Bond.cpp:121-130. *)
Definition l0_get (b : l0bond) (nm : bname) (i : nat) : outcome R :=
  match nm with BKappa => Ok (l0K b i) | _ => Throw end.
(** HarmonicL0Bond.h:167-168 and 173-175. *)
Definition l0_energy (b : l0bond) (rSq : R) (i : nat) : R := 1/2 * l0K b i * rSq.
(** HarmonicL0Bond.h:173-175. *)
Definition l0_forceOverR (b : l0bond) (rSq : R) (i : nat) : R := - l0K b i.

(** FeneBond.h:147-183. *)
Record fene := FENE {
  fK : ptab;  fR0 : ptab;  fR0Sq : ptab;  fR0SqInv : ptab;  fCe : ptab;  fRlSq : ptab;  fRl : ptab;
  fEcut : ptab;  fFcut : R;  fN : nat
}.
(** FeneBond.cpp:20-34: forceCutoff_ is not initialised ([junk]). *)
Definition fene_new (junk : R) : fene :=
  FENE (fun _ => 0) (fun _ => 0) (fun _ => 0) (fun _ => 0) (fun _ => 0) (fun _ => 0) (fun _ => 0)
       (fun _ => 0) junk 0.
(** FeneBond.cpp:77-81 (UTIL_CHECK throws); MaxNBondType = 2. *)
Definition fene_setN (b : fene) (n : nat) : outcome fene :=
  if (2 <? n)%nat then Throw else
  Ok (FENE (fK b) (fR0 b) (fR0Sq b) (fR0SqInv b) (fCe b) (fRlSq b) (fRl b) (fEcut b) (fFcut b) n).
(** FeneBond.cpp:98-105, and the same text at 202-209: derived constants of type [i]. *)
Definition fene_derive (b : fene) (i : nat) : fene :=
  let r0Sq := pset (fR0Sq b) i (fR0 b i * fR0 b i) in
  let r0SqInv := pset (fR0SqInv b) i (1 / r0Sq i) in
  let ce := pset (fCe b) i (-1/2 * r0Sq i * fK b i) in
  let y := 1/2 * fK b i * fR0 b i / fFcut b in
  let rl := pset (fRl b) i (fR0 b i * (sqrt (1 + y * y) - y)) in
  let rlSq := pset (fRlSq b) i (rl i * rl i) in
  let g := 1 - rlSq i * r0SqInv i in
  FENE (fK b) (fR0 b) r0Sq r0SqInv ce rlSq rl (pset (fEcut b) i (ce i * ln g)) (fFcut b) (fN b).
(** FeneBond.cpp:86-107. *)
Definition fene_read (b : fene) (k r0 : ptab) (fc : R) : outcome fene :=
  if (fN b =? 0)%nat then Throw else
  let b := FENE (pread (fN b) (fK b) k) (pread (fN b) (fR0 b) r0) (fR0Sq b) (fR0SqInv b) (fCe b)
                (fRlSq b) (fRl b) (fEcut b) fc (fN b) in
  Ok (fold_left fene_derive (seq 0 (fN b)) b).
(** FeneBond.cpp:192-210. *)
Definition fene_set (b : fene) (nm : bname) (i : nat) (x : R) : outcome fene :=
  match nm with
  | BKappa => if (i <? 2)%nat then
      Ok (fene_derive (FENE (pset (fK b) i x) (fR0 b) (fR0Sq b) (fR0SqInv b) (fCe b) (fRlSq b) (fRl b)
                            (fEcut b) (fFcut b) (fN b)) i) else UB
  | BR0 => if (i <? 2)%nat then
      Ok (fene_derive (FENE (fK b) (pset (fR0 b) i x) (fR0Sq b) (fR0SqInv b) (fCe b) (fRlSq b) (fRl b)
                            (fEcut b) (fFcut b) (fN b)) i) else UB
  | _ => Throw
  end.
(** FeneBond.cpp:215-227. *)
Definition fene_get (b : fene) (nm : bname) (i : nat) : outcome R :=
  match nm with BKappa => Ok (fK b i) | BR0 => Ok (fR0 b i) | _ => Throw end.
(** FeneBond.h:192-201. *)
Definition fene_energy (b : fene) (rSq : R) (i : nat) : R :=
  if Rlt_dec rSq (fRlSq b i) then
    let g := 1 - rSq * fR0SqInv b i in fCe b i * ln g
  else fEcut b i + fFcut b * (sqrt rSq - fRl b i).
(** FeneBond.h:206-219 (the warning is omitted). *)
Definition fene_forceOverR (b : fene) (rSq : R) (i : nat) : R :=
  if Rlt_dec rSq (fRlSq b i) then
    let g := 1 - rSq * fR0SqInv b i in - fK b i / g
  else - fFcut b / sqrt rSq.

(** CompositeBond.h:209-217 and 222-230, for bare potentials given by their functions.  The
    pair force is added without comparing rsq with the cutoff. *)
Definition composite_energy (bondE : R -> nat -> R) (pairE : R -> nat -> nat -> R) (rsq : R) (i : nat) : R :=
  bondE rsq i + pairE rsq 0%nat 0%nat.
(** CompositeBond.h:222-230. *)
Definition composite_forceOverR (bondF : R -> nat -> R) (pairF : R -> nat -> nat -> R) (rsq : R) (i : nat) : R :=
  bondF rsq i + pairF rsq 0%nat 0%nat.
