(** Model of the pair interactions Simp::LJPair, WcaPair, DpdPair and CompensatedPair
    (src/simp/interaction/pair), over real numbers. *)
From Verif Require Import Base.
From Coq Require Import Reals.
Local Open Scope R_scope.

(** A double[4][4] member (LJPair.h:202-211).  Elements outside the array are not
    represented: every access below has both indices less than 4, or is [UB]. *)
Definition tab := nat -> nat -> R.
(** Assignment to an element, e.g. LJPair.cpp:272-300. *)
Definition tset (t : tab) (i j : nat) (x : R) : tab :=
  fun a b => if Nat.eqb a i && Nat.eqb b j then x else t a b.

(** Parameter names recognised by set and get; [POther] is any other string.  LJPair.cpp:270-320. *)
Inductive pname := PEpsilon | PSigma | PCutoff | POther.

(** LJPair.h:205-228. *)
Record lj := LJ {
  lEps : tab;  lSig : tab;  lSigSq : tab;  lCut : tab;  lCutSq : tab;  lShift : tab;  lEps48 : tab;
  lMaxCut : R;  lN : nat;  lInit : bool
}.

(** LJPair.cpp:24-28.  The arrays are not initialised: [junk] is whatever is there. *)
Definition lj_new (junk : lj) : lj :=
  LJ (lEps junk) (lSig junk) (lSigSq junk) (lCut junk) (lCutSq junk) (lShift junk) (lEps48 junk)
     0 0 false.

(** LJPair.cpp:78-87 (a negative argument also throws; [nat] here). *)
Definition lj_setNAtomType (p : lj) (n : nat) : outcome lj :=
  if (n =? 0)%nat then Throw else if (4 <? n)%nat then Throw else
  Ok (LJ (lEps p) (lSig p) (lSigSq p) (lCut p) (lCutSq p) (lShift p) (lEps48 p) (lMaxCut p) n (lInit p)).

(** The shift computed at LJPair.cpp:110-112, 143-145, 182-184, 292-294. *)
Definition lj_shift_of (eps sigSq cutSq : R) : R :=
  let r6i := sigSq / cutSq in
  let r6i := r6i * r6i * r6i in
  -4 * eps * (r6i * r6i - r6i).

(** Elements with both indices below [n] come from [new], others are untouched: the
    effect of the double loops LJPair.cpp:177-189. *)
Definition upto (n : nat) (old new : tab) : tab :=
  fun i j => if (i <? n)%nat && (j <? n)%nat then new i j else old i j.

(** LJPair.cpp:176, 185-187: running maximum over the double loop. *)
Definition max_cut (n : nat) (cut : tab) : R :=
  fold_left (fun m i => fold_left (fun m j => if Rgt_dec (cut i j) m then cut i j else m) (seq 0 n) m)
            (seq 0 n) 0.

(** LJPair.cpp:159-191: [eps], [sig], [cut] are the tables in the file. *)
Definition lj_read (p : lj) (eps sig cut : tab) : outcome lj :=
  if (lN p =? 0)%nat then Throw else
  let n := lN p in
  let eps := upto n (lEps p) eps in
  let sig := upto n (lSig p) sig in
  let cut := upto n (lCut p) cut in
  let sigSq := upto n (lSigSq p) (fun i j => sig i j * sig i j) in
  let cutSq := upto n (lCutSq p) (fun i j => cut i j * cut i j) in
  Ok (LJ eps sig sigSq cut cutSq
         (upto n (lShift p) (fun i j => lj_shift_of (eps i j) (sigSq i j) (cutSq i j)))
         (upto n (lEps48 p) (fun i j => 48 * eps i j))
         (max_cut n cut) n true).

(** LJPair.cpp:92-120. *)
Definition lj_setEpsilon (p : lj) (i j : nat) (e : R) : outcome lj :=
  if negb (lInit p) then Throw else
  if (lN p <=? i)%nat then Throw else if (lN p <=? j)%nat then Throw else
  let eps := tset (lEps p) i j e in
  let eps48 := tset (lEps48 p) i j (48 * e) in
  let sh := tset (lShift p) i j (lj_shift_of (eps i j) (lSigSq p i j) (lCutSq p i j)) in
  let '(eps, eps48, sh) :=
    if (j =? i)%nat then (eps, eps48, sh)
    else (tset eps j i (eps i j), tset eps48 j i (eps48 i j), tset sh j i (sh i j)) in
  Ok (LJ eps (lSig p) (lSigSq p) (lCut p) (lCutSq p) sh eps48 (lMaxCut p) (lN p) (lInit p)).

(** LJPair.cpp:125-154.  Line 151 assigns ljShift_[j][i] to itself. *)
Definition lj_setSigma (p : lj) (i j : nat) (s : R) : outcome lj :=
  if negb (lInit p) then Throw else
  if (lN p <=? i)%nat then Throw else if (lN p <=? j)%nat then Throw else
  let sig := tset (lSig p) i j s in
  let sigSq := tset (lSigSq p) i j (s * s) in
  let sh := tset (lShift p) i j (lj_shift_of (lEps p i j) (sigSq i j) (lCutSq p i j)) in
  let '(sig, sigSq, sh) :=
    if (j =? i)%nat then (sig, sigSq, sh)
    else (tset sig j i (sig i j), tset sigSq j i (sigSq i j), tset sh j i (sh j i)) in
  Ok (LJ (lEps p) sig sigSq (lCut p) (lCutSq p) sh (lEps48 p) (lMaxCut p) (lN p) (lInit p)).

(** LJPair.cpp:292-297, the end of set.  Line 296 assigns ljShift_[j][i] to itself. *)
Definition lj_set_tail (p : lj) (eps sig sigSq eps48 : tab) (i j : nat) : lj :=
  let sh := tset (lShift p) i j (lj_shift_of (eps i j) (sigSq i j) (lCutSq p i j)) in
  let sh := if (j =? i)%nat then sh else tset sh j i (sh j i) in
  LJ eps sig sigSq (lCut p) (lCutSq p) sh eps48 (lMaxCut p) (lN p) (lInit p).

(** LJPair.cpp:270-299.  No check of the indices. *)
Definition lj_set (p : lj) (name : pname) (i j : nat) (v : R) : outcome lj :=
  if negb ((i <? 4)%nat && (j <? 4)%nat) then match name with PEpsilon | PSigma => UB | _ => Throw end else
  match name with
  | PEpsilon =>
      let eps := tset (lEps p) i j v in
      let eps48 := tset (lEps48 p) i j (48 * v) in
      let '(eps, eps48) := if (j =? i)%nat then (eps, eps48)
                           else (tset eps j i v, tset eps48 j i (eps48 i j)) in
      Ok (lj_set_tail p eps (lSig p) (lSigSq p) eps48 i j)
  | PSigma =>
      let sig := tset (lSig p) i j v in
      let sigSq := tset (lSigSq p) i j (v * v) in
      let '(sig, sigSq) := if (j =? i)%nat then (sig, sigSq)
                           else (tset sig j i (sig i j), tset sigSq j i (sigSq i j)) in
      Ok (lj_set_tail p (lEps p) sig sigSq (lEps48 p) i j)
  | _ => Throw
  end.

(** LJPair.cpp:304-319, and epsilon, sigma (250-265, 0 names). *)
Definition lj_get (p : lj) (name : pname) (i j : nat) : outcome R :=
  match name with
  | PEpsilon => Ok (lEps p i j)
  | PSigma => Ok (lSig p i j)
  | PCutoff => Ok (lCut p i j)
  | POther => Throw
  end.

(** LJPair.h:237-250. *)
Definition lj_energy (p : lj) (rsq : R) (i j : nat) : R :=
  if Rlt_dec rsq (lCutSq p i j) then
    let rsq := if Rlt_dec rsq (6/10 * lSigSq p i j) then 6/10 * lSigSq p i j else rsq in
    let r6i := lSigSq p i j / rsq in
    let r6i := r6i * r6i * r6i in
    4 * lEps p i j * (r6i * r6i - r6i) + lShift p i j
  else 0.

(** LJPair.h:255-262. *)
Definition lj_forceOverR (p : lj) (rsq : R) (i j : nat) : R :=
  let r2i := 1 / rsq in
  let r6i := lSigSq p i j * r2i in
  let r6i := r6i * r6i * r6i in
  lEps48 p i j * (r6i - 1/2) * r6i * r2i.

(** WcaPair.cpp:21-56. *)
Definition wca_read (p : lj) (eps sig : tab) : outcome lj :=
  if (lN p =? 0)%nat then Throw else
  let n := lN p in
  let eps := upto n (lEps p) eps in
  let sig := upto n (lSig p) sig in
  let cut := upto n (lCut p) (fun i j => sig i j * Rpower 2 (1/6)) in
  let sigSq := upto n (lSigSq p) (fun i j => sig i j * sig i j) in
  let cutSq := upto n (lCutSq p) (fun i j => cut i j * cut i j) in
  Ok (LJ eps sig sigSq cut cutSq
         (upto n (lShift p) (fun i j => lj_shift_of (eps i j) (sigSq i j) (cutSq i j)))
         (upto n (lEps48 p) (fun i j => 48 * eps i j))
         (max_cut n cut) n true).

(** WcaPair.cpp:61-82. *)
Definition wca_set (p : lj) (name : pname) (i j : nat) (v : R) : outcome lj :=
  match name with PEpsilon => lj_set p PEpsilon i j v | _ => Throw end.

(** DpdPair.h:203-220. *)
Record dpd := DPD {
  dEps : tab;  dSig : tab;  dSigSq : tab;  dCe : tab;  dCf : tab;  dMaxCut : R;  dN : nat;  dInit : bool
}.
(** DpdPair.cpp:22-26. *)
Definition dpd_new (junk : dpd) : dpd :=
  DPD (dEps junk) (dSig junk) (dSigSq junk) (dCe junk) (dCf junk) 0 0 false.
(** DpdPair.cpp:149-158. *)
Definition dpd_setNAtomType (p : dpd) (n : nat) : outcome dpd :=
  if (n =? 0)%nat then Throw else if (4 <? n)%nat then Throw else
  Ok (DPD (dEps p) (dSig p) (dSigSq p) (dCe p) (dCf p) (dMaxCut p) n (dInit p)).
(** DpdPair.cpp:72-100. *)
Definition dpd_read (p : dpd) (eps sig : tab) : outcome dpd :=
  if (dN p =? 0)%nat then Throw else
  let n := dN p in
  let eps := upto n (dEps p) eps in
  let sig := upto n (dSig p) sig in
  let sigSq := upto n (dSigSq p) (fun i j => sig i j * sig i j) in
  let cf := upto n (dCf p) (fun i j => eps i j / sigSq i j) in
  let ce := upto n (dCe p) (fun i j => 1/2 * cf i j) in
  Ok (DPD eps sig sigSq ce cf (max_cut n sig) n true).
(** DpdPair.cpp:163-186. *)
Definition dpd_setEpsilon (p : dpd) (i j : nat) (e : R) : outcome dpd :=
  if negb (dInit p) then Throw else
  if (dN p <=? i)%nat then Throw else if (dN p <=? j)%nat then Throw else
  let eps := tset (dEps p) i j e in
  let cf := tset (dCf p) i j (eps i j / dSigSq p i j) in
  let ce := tset (dCe p) i j (1/2 * cf i j) in
  let '(eps, cf, ce) := if (j =? i)%nat then (eps, cf, ce)
     else (tset eps j i e, tset cf j i (cf i j), tset ce j i (ce i j)) in
  Ok (DPD eps (dSig p) (dSigSq p) ce cf (dMaxCut p) (dN p) (dInit p)).
(** DpdPair.cpp:191-218. *)
Definition dpd_setSigma (p : dpd) (i j : nat) (s : R) : outcome dpd :=
  if negb (dInit p) then Throw else
  if (dN p <=? i)%nat then Throw else if (dN p <=? j)%nat then Throw else
  let sig := tset (dSig p) i j s in
  let sigSq := tset (dSigSq p) i j (s * s) in
  let cf := tset (dCf p) i j (dEps p i j / sigSq i j) in
  let ce := tset (dCe p) i j (1/2 * cf i j) in
  let '(sig, sigSq, cf, ce) := if (j =? i)%nat then (sig, sigSq, cf, ce)
     else (tset sig j i s, tset sigSq j i (sigSq i j), tset cf j i (cf i j), tset ce j i (ce i j)) in
  Ok (DPD (dEps p) sig sigSq ce cf (dMaxCut p) (dN p) (dInit p)).
(** DpdPair.cpp:249-261.  Only epsilon_ or sigma_ is changed. *)
Definition dpd_set (p : dpd) (name : pname) (i j : nat) (v : R) : outcome dpd :=
  if negb ((i <? 4)%nat && (j <? 4)%nat) then match name with PEpsilon | PSigma => UB | _ => Throw end else
  match name with
  | PEpsilon => Ok (DPD (tset (tset (dEps p) i j v) j i v) (dSig p) (dSigSq p) (dCe p) (dCf p)
                        (dMaxCut p) (dN p) (dInit p))
  | PSigma => Ok (DPD (dEps p) (tset (tset (dSig p) i j v) j i v) (dSigSq p) (dCe p) (dCf p)
                        (dMaxCut p) (dN p) (dInit p))
  | _ => Throw
  end.
(** DpdPair.cpp:266-278. *)
Definition dpd_get (p : dpd) (name : pname) (i j : nat) : outcome R :=
  match name with PEpsilon => Ok (dEps p i j) | PSigma => Ok (dSig p i j) | _ => Throw end.
(** DpdPair.h:229-238 and 243-250. *)
Definition dpd_energy (p : dpd) (rsq : R) (i j : nat) : R :=
  if Rlt_dec rsq (dSigSq p i j) then
    let dr := sqrt rsq - dSig p i j in dCe p i j * dr * dr
  else 0.
(** DpdPair.h:243-250. *)
Definition dpd_forceOverR (p : dpd) (rsq : R) (i j : nat) : R :=
  if Rlt_dec rsq (dSigSq p i j) then dCf p i j * (dSig p i j / sqrt rsq - 1) else 0.

(** CompensatedPair.h:138-160: parameters, with the bare pair and the link potential
    given by their energy, force and cutoff functions. *)
Record comp := Comp {
  cMaxLink : R;  cMaxLinkSq : R;  cMaxPair : R;  cMaxPairSq : R;  cTemp : R;  cMu : R;
  cActivity : R;  cBeta : R
}.
(** CompensatedPair.h:246-258; [pairMax] is pair_.maxPairCutoff(). *)
Definition comp_read (pairMax maxLink temp mu : R) : comp :=
  let beta := 1 / temp in
  let mp := if Rgt_dec pairMax maxLink then pairMax else maxLink in
  Comp maxLink (maxLink * maxLink) mp (mp * mp) temp mu (exp (mu * beta)) beta.
Section Compensated.
  Variable pairE pairF : R -> nat -> nat -> R.  Variable pairCutSq : nat -> nat -> R.
  Variable linkE linkF : R -> nat -> R.
  (** CompensatedPair.h:291-298. *)
  Definition comp_energy (c : comp) (rsq : R) (i j : nat) : R :=
    let total := pairE rsq i j in
    if Rlt_dec rsq (cMaxLinkSq c) then
      total + cActivity c * cTemp c * exp (- cBeta c * linkE rsq 0) else total.
  (** CompensatedPair.h:306-316. *)
  Definition comp_forceOverR (c : comp) (rsq : R) (i j : nat) : R :=
    let total := 0 in
    let total := if Rlt_dec rsq (pairCutSq i j) then total + pairF rsq i j else total in
    if Rlt_dec rsq (cMaxLinkSq c) then
      total - cActivity c * exp (- cBeta c * linkE rsq 0) * linkF rsq 0 else total.
End Compensated.
