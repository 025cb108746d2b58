From Verif Require Import Base PairModel PairSpec Deriv.
From Coq Require Import Reals Lra.
From Coquelicot Require Import Coquelicot.
Local Open Scope R_scope.

Lemma tset_eq t i j x : tset t i j x i j = x.
Proof. unfold tset. by rewrite !Nat.eqb_refl. Qed.
Lemma tset_spec t i j x a b :
  (a = i /\ b = j /\ tset t i j x a b = x) \/ ((a <> i \/ b <> j) /\ tset t i j x a b = t a b).
Proof.
  unfold tset. destruct (Nat.eqb_spec a i), (Nat.eqb_spec b j); simpl; auto.
Qed.
Lemma upto_eq n o f i j : (i < n)%nat -> (j < n)%nat -> upto n o f i j = f i j.
Proof. intros Hi Hj. unfold upto. by destruct (Nat.ltb_spec i n), (Nat.ltb_spec j n); try lia. Qed.

Ltac tcase := repeat match goal with
  | |- context [tset ?t ?i ?j ?x ?a ?b] =>
     destruct (tset_spec t i j x a b) as [(?&?&->)|[? ->]]; subst
  end; try (exfalso; lia).

(** Invariants of one ordered type pair. *)
Record lj_ok (p : lj) (i j : nat) : Prop := {
  lo_sigSq : lSigSq p i j = lSig p i j * lSig p i j;
  lo_cutSq : lCutSq p i j = lCut p i j * lCut p i j;
  lo_eps48 : lEps48 p i j = 48 * lEps p i j
}.
Definition shift_ok (p : lj) (i j : nat) : Prop :=
  lShift p i j = lj_shift_of (lEps p i j) (lSigSq p i j) (lCutSq p i j).

Lemma lj_read_ok p eps sig cut p' i j : lj_read p eps sig cut = Ok p' ->
  (i < lN p)%nat -> (j < lN p)%nat ->
  lEps p' i j = eps i j /\ lSig p' i j = sig i j /\ lCut p' i j = cut i j /\
  lj_ok p' i j /\ shift_ok p' i j.
Proof.
  unfold lj_read. destruct (lN p =? 0)%nat; [done|]. intros [= <-] Hi Hj.
  unfold shift_ok; simpl. rewrite !upto_eq by done. repeat split; simpl; by rewrite !upto_eq.
Qed.

Lemma wca_read_ok p eps sig p' i j : wca_read p eps sig = Ok p' ->
  (i < lN p)%nat -> (j < lN p)%nat ->
  lEps p' i j = eps i j /\ lSig p' i j = sig i j /\ lCut p' i j = sig i j * Rpower 2 (1/6) /\
  lj_ok p' i j /\ shift_ok p' i j.
Proof.
  unfold wca_read. destruct (lN p =? 0)%nat; [done|]. intros [= <-] Hi Hj.
  unfold shift_ok; simpl. rewrite !upto_eq by done. repeat split; simpl; by rewrite !upto_eq.
Qed.

(** Effect of the set calls on the fields. *)
Lemma lj_setEpsilon_eq p i j e p' : lj_setEpsilon p i j e = Ok p' ->
  lSig p' = lSig p /\ lSigSq p' = lSigSq p /\ lCut p' = lCut p /\ lCutSq p' = lCutSq p /\ lN p' = lN p /\
  forall a b, 
   ((a = i /\ b = j \/ a = j /\ b = i) /\ lEps p' a b = e /\ lEps48 p' a b = 48 * e /\
      lShift p' a b = lj_shift_of e (lSigSq p i j) (lCutSq p i j)) \/
   (~ (a = i /\ b = j \/ a = j /\ b = i) /\ lEps p' a b = lEps p a b /\ lEps48 p' a b = lEps48 p a b /\
      lShift p' a b = lShift p a b).
Proof.
  unfold lj_setEpsilon. destruct (negb _); [done|]. destruct (_ <=? i)%nat; [done|].
  destruct (_ <=? j)%nat; [done|]. rewrite ?tset_eq.
  destruct (Nat.eqb_spec j i) as [->|Hne]; intros [= <-]; simpl; (do 5 (split; [done|])); intros a b.
  - tcase; first [left; tauto | right; repeat split; auto; lia].
  - rewrite ?tset_eq. tcase; first [left; tauto | right; repeat split; auto; lia].
Qed.

Lemma lj_setSigma_eq p i j s p' : lj_setSigma p i j s = Ok p' ->
  lEps p' = lEps p /\ lEps48 p' = lEps48 p /\ lCut p' = lCut p /\ lCutSq p' = lCutSq p /\ lN p' = lN p /\
  forall a b, 
   ((a = i /\ b = j \/ a = j /\ b = i) /\ lSig p' a b = s /\ lSigSq p' a b = s * s) \/
   (~ (a = i /\ b = j \/ a = j /\ b = i) /\ lSig p' a b = lSig p a b /\ lSigSq p' a b = lSigSq p a b).
Proof.
  unfold lj_setSigma. destruct (negb _); [done|]. destruct (_ <=? i)%nat; [done|].
  destruct (_ <=? j)%nat; [done|]. rewrite ?tset_eq.
  destruct (Nat.eqb_spec j i) as [->|Hne]; intros [= <-]; simpl; (do 5 (split; [done|])); intros a b.
  - tcase; first [left; tauto | right; repeat split; auto; lia].
  - tcase; first [left; tauto | right; repeat split; auto; lia].
Qed.

Lemma lj_setSigma_shift p i j s p' : lj_setSigma p i j s = Ok p' ->
  forall a b, (a = i /\ b = j /\ lShift p' a b = lj_shift_of (lEps p i j) (s * s) (lCutSq p i j)) \/
              ((a <> i \/ b <> j) /\ lShift p' a b = lShift p a b).
Proof.
  unfold lj_setSigma. destruct (negb _); [done|]. destruct (_ <=? i)%nat; [done|].
  destruct (_ <=? j)%nat; [done|]. rewrite ?tset_eq.
  destruct (Nat.eqb_spec j i) as [->|Hne]; intros [= <-]; simpl; intros a b; tcase; auto; try lia.
  all: try (destruct (tset_spec (lShift p) i j (lj_shift_of (lEps p i j) (s * s) (lCutSq p i j)) j i)
     as [(?&?&->)|[? ->]]; [lia|]); right; auto.
Qed.

Lemma lj_set_eps_eq p i j e p' : lj_set p PEpsilon i j e = Ok p' ->
  lSig p' = lSig p /\ lSigSq p' = lSigSq p /\ lCut p' = lCut p /\ lCutSq p' = lCutSq p /\ lN p' = lN p /\
  (forall a b, 
   ((a = i /\ b = j \/ a = j /\ b = i) /\ lEps p' a b = e /\ lEps48 p' a b = 48 * e) \/
   (~ (a = i /\ b = j \/ a = j /\ b = i) /\ lEps p' a b = lEps p a b /\ lEps48 p' a b = lEps48 p a b)) /\
  (forall a b, (a = i /\ b = j /\ lShift p' a b = lj_shift_of e (lSigSq p i j) (lCutSq p i j)) \/
              ((a <> i \/ b <> j) /\ lShift p' a b = lShift p a b)).
Proof.
  unfold lj_set, lj_set_tail. destruct (negb _); [done|]. rewrite ?tset_eq.
  destruct (Nat.eqb_spec j i) as [->|Hne]; intros [= <-]; simpl; (do 5 (split; [done|])).
  - rewrite ?tset_eq. split; intros a b; tcase; first [left; tauto | right; repeat split; auto; lia].
  - assert (E : tset (tset (lEps p) i j e) j i e i j = e) by (tcase; done).
    rewrite E. split; intros a b.
    + tcase; first [left; tauto | right; repeat split; auto; lia].
    + destruct (tset_spec (tset (lShift p) i j (lj_shift_of e (lSigSq p i j) (lCutSq p i j))) j i
         (tset (lShift p) i j (lj_shift_of e (lSigSq p i j) (lCutSq p i j)) j i) a b) as [(->&->&->)|[H ->]].
      * right. split; [lia|]. tcase; done.
      * tcase; auto.
Qed.

Lemma lj_set_sig_eq p i j s p' : lj_set p PSigma i j s = Ok p' ->
  lEps p' = lEps p /\ lEps48 p' = lEps48 p /\ lCut p' = lCut p /\ lCutSq p' = lCutSq p /\ lN p' = lN p /\
  (forall a b, 
   ((a = i /\ b = j \/ a = j /\ b = i) /\ lSig p' a b = s /\ lSigSq p' a b = s * s) \/
   (~ (a = i /\ b = j \/ a = j /\ b = i) /\ lSig p' a b = lSig p a b /\ lSigSq p' a b = lSigSq p a b)) /\
  (forall a b, (a = i /\ b = j /\ lShift p' a b = lj_shift_of (lEps p i j) (s * s) (lCutSq p i j)) \/
              ((a <> i \/ b <> j) /\ lShift p' a b = lShift p a b)).
Proof.
  unfold lj_set, lj_set_tail. destruct (negb _); [done|]. rewrite ?tset_eq.
  destruct (Nat.eqb_spec j i) as [->|Hne]; intros [= <-]; simpl; (do 5 (split; [done|])).
  - rewrite ?tset_eq. split; intros a b; tcase; first [left; tauto | right; repeat split; auto; lia].
  - assert (E : tset (tset (lSigSq p) i j (s * s)) j i (s * s) i j = s * s) by (tcase; done).
    rewrite E. split; intros a b.
    + tcase; first [left; tauto | right; repeat split; auto; lia].
    + destruct (tset_spec (tset (lShift p) i j (lj_shift_of (lEps p i j) (s * s) (lCutSq p i j))) j i
         (tset (lShift p) i j (lj_shift_of (lEps p i j) (s * s) (lCutSq p i j)) j i) a b) as [(->&->&->)|[H ->]].
      * right. split; [lia|]. tcase; done.
      * tcase; auto.
Qed.

Lemma lj_set_cases p nm i j v p' : lj_set p nm i j v = Ok p' -> nm = PEpsilon \/ nm = PSigma.
Proof. unfold lj_set. destruct nm; auto; by destruct (negb _). Qed.

Definition sym_below (n : nat) (t : tab) : Prop :=
  forall i j, (i < n)%nat -> (j < n)%nat -> t i j = t j i.

Lemma lj_step_ok n p o p' : lj_step p o = Ok p' ->
  lN p' = lN p /\ lCut p' = lCut p /\ lCutSq p' = lCutSq p /\
  (sym_below n (lEps p) -> sym_below n (lEps p')) /\
  (sym_below n (lSig p) -> sym_below n (lSig p')) /\
  (forall a b, lj_ok p a b -> lj_ok p' a b).
Proof.
  assert (KE : forall i j e, (forall a b, 
   ((a = i /\ b = j \/ a = j /\ b = i) /\ lEps p' a b = e /\ lEps48 p' a b = 48 * e) \/
   (~ (a = i /\ b = j \/ a = j /\ b = i) /\ lEps p' a b = lEps p a b /\ lEps48 p' a b = lEps48 p a b)) ->
   lSig p' = lSig p -> lSigSq p' = lSigSq p -> lCut p' = lCut p -> lCutSq p' = lCutSq p ->
   (sym_below n (lEps p) -> sym_below n (lEps p')) /\
   (sym_below n (lSig p) -> sym_below n (lSig p')) /\ (forall a b, lj_ok p a b -> lj_ok p' a b)).
  { intros i j e H E1 E2 E3 E4. split; [|split].
    - intros Hs a b La Lb. destruct (H a b) as [(Ha & -> & _)|(Ha & -> & _)], (H b a) as [(Hb & -> & _)|(Hb & -> & _)];
        [done|exfalso; apply Hb; tauto|exfalso; apply Ha; tauto|by apply Hs].
    - by rewrite E1.
    - intros a b [O1 O2 O3]. split; rewrite ?E1, ?E2, ?E3, ?E4; auto.
      destruct (H a b) as [(_ & -> & ->)|(_ & -> & ->)]; auto. }
  assert (KS : forall i j s, (forall a b, 
   ((a = i /\ b = j \/ a = j /\ b = i) /\ lSig p' a b = s /\ lSigSq p' a b = s * s) \/
   (~ (a = i /\ b = j \/ a = j /\ b = i) /\ lSig p' a b = lSig p a b /\ lSigSq p' a b = lSigSq p a b)) ->
   lEps p' = lEps p -> lEps48 p' = lEps48 p -> lCut p' = lCut p -> lCutSq p' = lCutSq p ->
   (sym_below n (lEps p) -> sym_below n (lEps p')) /\
   (sym_below n (lSig p) -> sym_below n (lSig p')) /\ (forall a b, lj_ok p a b -> lj_ok p' a b)).
  { intros i j e H E1 E2 E3 E4. split; [|split].
    - by rewrite E1.
    - intros Hs a b La Lb. destruct (H a b) as [(Ha & -> & _)|(Ha & -> & _)], (H b a) as [(Hb & -> & _)|(Hb & -> & _)];
        [done|exfalso; apply Hb; tauto|exfalso; apply Ha; tauto|by apply Hs].
    - intros a b [O1 O2 O3]. split; rewrite ?E1, ?E2, ?E3, ?E4; auto.
      destruct (H a b) as [(_ & -> & ->)|(_ & -> & ->)]; auto. }
  destruct o as [i j x|i j x|nm i j x]; simpl; intros H.
  - apply lj_setEpsilon_eq in H as (E1 & E2 & E3 & E4 & E5 & H). do 3 (split; [done|]).
    apply (KE i j x); auto. intros a b. destruct (H a b) as [(?&?&?&_)|(?&?&?&_)]; auto.
  - apply lj_setSigma_eq in H as (E1 & E2 & E3 & E4 & E5 & H). do 3 (split; [done|]).
    apply (KS i j x); auto.
  - destruct (lj_set_cases _ _ _ _ _ _ H) as [-> | ->].
    + apply lj_set_eps_eq in H as (E1 & E2 & E3 & E4 & E5 & H & _). do 3 (split; [done|]).
      apply (KE i j x); auto.
    + apply lj_set_sig_eq in H as (E1 & E2 & E3 & E4 & E5 & H & _). do 3 (split; [done|]).
      apply (KS i j x); auto.
Qed.

Lemma wca_step_lj p o p' : wca_step p o = Ok p' -> lj_step p o = Ok p'.
Proof. destruct o as [| |nm i j x]; simpl; auto. unfold wca_set. by destruct nm. Qed.

(** Derivative of the Lennard-Jones energy inside the cutoff and outside the core. *)
Lemma lj_derive p i j r : lj_ok p i j -> 0 < lSig p i j -> 0 < lCut p i j -> 0 < r ->
  6/10 * lSig p i j * lSig p i j < r * r -> r < lCut p i j ->
  is_derive (fun r => lj_energy p (r * r) i j) r (- (lj_forceOverR p (r * r) i j * r)).
Proof.
  intros [O1 O2 O3] Hs Hc Hr Hcore Hcut.
  set (s := lSig p i j) in *. set (c := lCut p i j) in *.
  assert (Q : 0 < 6/10 * s * s) by (apply Rmult_lt_0_compat; [lra|done]).
  assert (S : sqrt (6/10 * s * s) < r).
  { rewrite <- (sqrt_square r) by lra. apply sqrt_lt_1; lra. }
  apply (is_derive_between (sqrt (6/10 * s * s)) c _ _ _
    (fun r => 4 * lEps p i j * ((s * s / (r * r)) ^ 6 - (s * s / (r * r)) ^ 3) + lShift p i j)); [lra| |].
  - intros y [Hy1 Hy2]. unfold lj_energy.
    assert (Py : 0 < y) by (apply Rle_lt_trans with (2 := Hy1); apply sqrt_pos).
    assert (Qy : 6/10 * s * s < y * y).
    { rewrite <- (sqrt_def (6/10 * s * s)) by lra. pose proof (sqrt_pos (6/10 * s * s)). nra. }
    destruct (Rlt_dec (y * y) (lCutSq p i j)) as [_|H]; [|exfalso; apply H; rewrite O2; fold c; nra].
    rewrite O1. fold s. destruct (Rlt_dec (y * y) (6/10 * (s * s))); [lra|]. ring.
  - auto_derive; [nra|]. unfold lj_forceOverR. rewrite O3, O1. fold s. field. lra.
Qed.

(** Derivative inside the core. *)
Lemma lj_derive_core p i j r : lj_ok p i j -> 0 < lSig p i j -> 0 < lCut p i j -> 0 < r ->
  r * r < 6/10 * lSig p i j * lSig p i j -> r < lCut p i j ->
  is_derive (fun r => lj_energy p (r * r) i j) r 0.
Proof.
  intros [O1 O2 O3] Hs Hc Hr Hcore Hcut.
  set (s := lSig p i j) in *. set (c := lCut p i j) in *.
  assert (Q : 0 < 6/10 * s * s) by (apply Rmult_lt_0_compat; [lra|done]).
  assert (S : r < sqrt (6/10 * s * s)).
  { rewrite <- (sqrt_square r) by lra. apply sqrt_lt_1; nra. }
  apply (is_derive_between 0 (Rmin c (sqrt (6/10 * s * s))) _ _ _
     (fun _ => let r6i := s * s / (6/10 * (s * s)) in let r6i := r6i * r6i * r6i in
       4 * lEps p i j * (r6i * r6i - r6i) + lShift p i j)).
  - split; [lra|]. by apply Rmin_glb_lt.
  - intros y [Hy1 Hy2]. unfold lj_energy.
    assert (Y1 : y < c) by (eapply Rlt_le_trans; [apply Hy2|apply Rmin_l]).
    assert (Y2 : y < sqrt (6/10 * s * s)) by (eapply Rlt_le_trans; [apply Hy2|apply Rmin_r]).
    assert (Qy : y * y < 6/10 * s * s).
    { rewrite <- (sqrt_def (6/10 * s * s)) by lra. nra. }
    destruct (Rlt_dec (y * y) (lCutSq p i j)) as [_|H]; [|exfalso; apply H; rewrite O2; fold c; nra].
    rewrite O1. fold s. destruct (Rlt_dec (y * y) (6/10 * (s * s))); [done|lra].
  - apply (is_derive_const (V := R_NormedModule)).
Qed.

(** The energy is the truncated and shifted Lennard-Jones formula. *)
Lemma lj_energy_formula p i j r : lj_ok p i j -> shift_ok p i j -> 0 < lSig p i j -> 0 < lCut p i j -> 0 < r ->
  6/10 * lSig p i j * lSig p i j <= r * r -> 
  lj_energy p (r * r) i j = if Rlt_dec r (lCut p i j) then LJ_formula (lEps p i j) (lSig p i j) (lCut p i j) r else 0.
Proof.
  intros [O1 O2 O3] Hsh Hs Hc Hr Hcore. unfold lj_energy.
  set (s := lSig p i j) in *. set (c := lCut p i j) in *.
  rewrite O2. destruct (Rlt_dec (r * r) (c * c)) as [H|H], (Rlt_dec r c) as [H'|H']; [|nra|nra|done].
  rewrite O1. destruct (Rlt_dec (r * r) (6/10 * (s * s))); [lra|].
  rewrite Hsh, O1, O2. fold s c. unfold lj_shift_of, LJ_formula. field. lra.
Qed.

(** States reached by any history. *)
Record lj_reach (n : nat) (cut : tab) (p : lj) : Prop := {
  lr_n : lN p = n;
  lr_cut : forall i j, (i < n)%nat -> (j < n)%nat -> lCut p i j = cut i j;
  lr_ok : forall i j, (i < n)%nat -> (j < n)%nat -> lj_ok p i j
}.
Lemma lj_reach_step n cut p o p' : lj_reach n cut p -> lj_step p o = Ok p' -> lj_reach n cut p'.
Proof.
  intros [H1 H2 H3] H. destruct (lj_step_ok n _ _ _ H) as (E1 & E2 & E3 & _ & _ & E4).
  split; [congruence| |auto]. by rewrite E2.
Qed.
Lemma lj_start junk n eps sig cut p0 :
  (let? p := lj_setNAtomType (lj_new junk) n in lj_read p eps sig cut) = Ok p0 ->
  lj_reach n cut p0 /\
  forall i j, (i < n)%nat -> (j < n)%nat -> lEps p0 i j = eps i j /\ lSig p0 i j = sig i j /\ shift_ok p0 i j.
Proof.
  intros H. apply obind_Ok in H as (p & Hn & H).
  assert (En : lN p = n).
  { unfold lj_setNAtomType in Hn. destruct (n =? 0)%nat; [done|]. destruct (4 <? n)%nat; [done|]. by injection Hn as <-. }
  assert (A : forall i j, (i < n)%nat -> (j < n)%nat -> lEps p0 i j = eps i j /\ lSig p0 i j = sig i j /\
     lCut p0 i j = cut i j /\ lj_ok p0 i j /\ shift_ok p0 i j).
  { intros i j Hi Hj. apply (lj_read_ok p); [done|lia|lia]. }
  split.
  - split; [|intros; by apply A|intros; by apply A].
    unfold lj_read in H. destruct (lN p =? 0)%nat; [done|]. by injection H as <-.
  - intros i j Hi Hj. destruct (A i j Hi Hj) as (?&?&_&_&?). auto.
Qed.
Lemma lj_life_reach junk n eps sig cut ops p : lj_life junk n eps sig cut ops = Ok p -> lj_reach n cut p.
Proof.
  unfold lj_life. intros H. apply obind_Ok in H as (p1 & Hn & H). apply obind_Ok in H as (p0 & Hr & H).
  assert (S : (let? p := lj_setNAtomType (lj_new junk) n in lj_read p eps sig cut) = Ok p0).
  { rewrite Hn. done. }
  apply lj_start in S as [S _]. revert S H. apply run_inv. intros. by eapply lj_reach_step.
Qed.
Lemma wca_start junk n eps sig p0 :
  (let? p := lj_setNAtomType (lj_new junk) n in wca_read p eps sig) = Ok p0 ->
  lj_reach n (fun i j => sig i j * Rpower 2 (1/6)) p0 /\
  forall i j, (i < n)%nat -> (j < n)%nat -> lEps p0 i j = eps i j /\ lSig p0 i j = sig i j /\ shift_ok p0 i j.
Proof.
  intros H. apply obind_Ok in H as (p & Hn & H).
  assert (En : lN p = n).
  { unfold lj_setNAtomType in Hn. destruct (n =? 0)%nat; [done|]. destruct (4 <? n)%nat; [done|]. by injection Hn as <-. }
  assert (A : forall i j, (i < n)%nat -> (j < n)%nat -> lEps p0 i j = eps i j /\ lSig p0 i j = sig i j /\
     lCut p0 i j = sig i j * Rpower 2 (1/6) /\ lj_ok p0 i j /\ shift_ok p0 i j).
  { intros i j Hi Hj. apply (wca_read_ok p); [done|lia|lia]. }
  split.
  - split; [|intros; by apply A|intros; by apply A].
    unfold wca_read in H. destruct (lN p =? 0)%nat; [done|]. by injection H as <-.
  - intros i j Hi Hj. destruct (A i j Hi Hj) as (?&?&_&_&?). auto.
Qed.

(** Histories that keep the shift right. *)
Definition careful (o : pair_op) : Prop :=
  match o with SetEpsilon _ _ _ => True | SetSigma i j _ => i = j | SetByName _ i j _ => i = j end.
Record lj_good (n : nat) (p : lj) : Prop := {
  lg_ok : forall i j, (i < n)%nat -> (j < n)%nat -> lj_ok p i j;
  lg_shift : forall i j, (i < n)%nat -> (j < n)%nat -> shift_ok p i j;
  lg_eps : sym_below n (lEps p);
  lg_sig : sym_below n (lSig p);
  lg_cut : sym_below n (lCut p);
  lg_n : lN p = n
}.
Lemma lj_good_step n p o p' : careful o -> lj_good n p -> lj_step p o = Ok p' -> lj_good n p'.
Proof.
  intros C [G1 G2 G3 G4 G5 G6] H. destruct (lj_step_ok n _ _ _ H) as (E1 & E2 & E3 & E4 & E5 & E6).
  split; auto; try congruence; [|by rewrite E2].
  intros a b La Lb. unfold shift_ok. rewrite E3.
  assert (SS : forall i j, (i < n)%nat -> (j < n)%nat -> lSigSq p i j = lSigSq p j i /\ lCutSq p i j = lCutSq p j i).
  { intros i j Hi Hj. destruct (G1 i j Hi Hj) as [-> -> _]. destruct (G1 j i Hj Hi) as [-> -> _].
    by rewrite (G4 i j Hi Hj), (G5 i j Hi Hj). }
  destruct o as [i j x|i j x|nm i j x]; simpl in H, C.
  - apply lj_setEpsilon_eq in H as (F1 & F2 & F3 & F4 & F5 & F). rewrite F2.
    destruct (F a b) as [(D & -> & _ & ->)|(D & -> & _ & ->)]; [|by apply G2].
    destruct D as [[-> ->]|[-> ->]]; [done|]. destruct (SS i j Lb La) as [-> ->]. done.
  - subst j. pose proof (lj_setSigma_shift _ _ _ _ _ H a b) as S.
    apply lj_setSigma_eq in H as (F1 & F2 & F3 & F4 & F5 & F). rewrite F1.
    destruct (F a b) as [(D & _ & ->)|(D & _ & ->)], S as [(S1 & S2 & ->)|[S1 ->]]; try lia.
    + by subst.
    + by apply G2.
  - subst j. destruct (lj_set_cases _ _ _ _ _ _ H) as [-> | ->].
    + apply lj_set_eps_eq in H as (F1 & F2 & F3 & F4 & F5 & F & S). rewrite F2.
      destruct (F a b) as [(D & -> & _)|(D & -> & _)], (S a b) as [(S1 & S2 & ->)|[S1 ->]]; try lia.
      * by subst.
      * by apply G2.
    + apply lj_set_sig_eq in H as (F1 & F2 & F3 & F4 & F5 & F & S). rewrite F1.
      destruct (F a b) as [(D & _ & ->)|(D & _ & ->)], (S a b) as [(S1 & S2 & ->)|[S1 ->]]; try lia.
      * by subst.
      * by apply G2.
Qed.
(** DPD. *)
Record dpd_ok (p : dpd) (i j : nat) : Prop := {
  do_sigSq : dSigSq p i j = dSig p i j * dSig p i j;
  do_cf : dCf p i j = dEps p i j / (dSig p i j * dSig p i j);
  do_ce : dCe p i j = 1/2 * dCf p i j
}.
Record dpd_good (n : nat) (p : dpd) : Prop := {
  dg_ok : forall i j, (i < n)%nat -> (j < n)%nat -> dpd_ok p i j;
  dg_eps : sym_below n (dEps p);
  dg_sig : sym_below n (dSig p);
  dg_n : dN p = n
}.
Lemma dpd_start junk n eps sig p0 :
  (let? p := dpd_setNAtomType (dpd_new junk) n in dpd_read p eps sig) = Ok p0 ->
  symmetric eps -> symmetric sig ->
  dpd_good n p0 /\
  forall i j, (i < n)%nat -> (j < n)%nat -> dEps p0 i j = eps i j /\ dSig p0 i j = sig i j.
Proof.
  intros H Se Ss. apply obind_Ok in H as (p & Hn & H).
  assert (En : dN p = n).
  { unfold dpd_setNAtomType in Hn. destruct (n =? 0)%nat; [done|]. destruct (4 <? n)%nat; [done|]. by injection Hn as <-. }
  unfold dpd_read in H. destruct (dN p =? 0)%nat; [done|]. rewrite En in H. injection H as <-. simpl.
  split.
  - split; simpl; auto.
    + intros i j Hi Hj. split; simpl; by rewrite !upto_eq.
    + intros i j Hi Hj. by rewrite !upto_eq.
    + intros i j Hi Hj. by rewrite !upto_eq.
  - intros i j Hi Hj. by rewrite !upto_eq.
Qed.
Definition setter (o : pair_op) : Prop := match o with SetByName _ _ _ _ => False | _ => True end.
Lemma dpd_good_step n p o p' : setter o -> dpd_good n p -> dpd_step p o = Ok p' -> dpd_good n p'.
Proof.
  intros C [G1 G2 G3 G4] H. destruct o as [i j x|i j x|]; simpl in H; [| |done].
  - unfold dpd_setEpsilon in H. destruct (negb _); [done|]. 
    destruct (Nat.leb_spec (dN p) i); [done|]. destruct (Nat.leb_spec (dN p) j); [done|].
    assert (Li : (i < n)%nat) by lia. assert (Lj : (j < n)%nat) by lia.
    rewrite ?tset_eq in H.
    destruct (Nat.eqb_spec j i) as [->|Hne]; injection H as <-; split; simpl; auto;
     rewrite ?tset_eq; intros a b La Lb; try split; simpl; tcase;
       try (destruct (G1 _ _ Li Lj) as [A1 A2 A3]); try (destruct (G1 _ _ La Lb) as [B1 B2 B3]); auto;
       try (by rewrite A1); try (rewrite A1; by rewrite (G3 i j)); try (exfalso; tauto); try (exfalso; lia).
  - unfold dpd_setSigma in H. destruct (negb _); [done|]. 
    destruct (Nat.leb_spec (dN p) i); [done|]. destruct (Nat.leb_spec (dN p) j); [done|].
    assert (Li : (i < n)%nat) by lia. assert (Lj : (j < n)%nat) by lia.
    rewrite ?tset_eq in H.
    destruct (Nat.eqb_spec j i) as [->|Hne]; injection H as <-; split; simpl; auto;
     rewrite ?tset_eq; intros a b La Lb; try split; simpl; tcase;
       try (destruct (G1 _ _ Li Lj) as [A1 A2 A3]); try (destruct (G1 _ _ La Lb) as [B1 B2 B3]); auto;
       try (by rewrite (G2 i j)); try (exfalso; tauto); try (exfalso; lia).
Qed.

Lemma dpd_derive p i j r : dpd_ok p i j -> 0 < dSig p i j -> 0 < r ->
  is_derive (fun r => dpd_energy p (r * r) i j) r (- (dpd_forceOverR p (r * r) i j * r)).
Proof.
  intros [O1 O2 O3] Hs Hr. set (s := dSig p i j) in *.
  assert (A : forall y, 0 < y < s -> dpd_energy p (y * y) i j = dCe p i j * (y - s) * (y - s)).
  { intros y Hy. unfold dpd_energy. rewrite O1. destruct (Rlt_dec (y * y) (s * s)); [|nra].
    fold s. by rewrite sqrt_square by lra. }
  assert (B : forall y, s <= y -> dpd_energy p (y * y) i j = 0).
  { intros y Hy. unfold dpd_energy. rewrite O1. destruct (Rlt_dec (y * y) (s * s)); [nra|done]. }
  assert (D : forall x, is_derive (fun y => dCe p i j * (y - s) * (y - s)) x (2 * dCe p i j * (x - s))).
  { intros x. auto_derive; [done|ring]. }
  unfold dpd_forceOverR. rewrite O1. fold s. rewrite sqrt_square by lra.
  destruct (Rlt_dec (r * r) (s * s)) as [L|L].
  - apply (is_derive_between 0 s _ _ _ (fun y => dCe p i j * (y - s) * (y - s))); [nra|auto|].
    replace (- _) with (2 * dCe p i j * (r - s)); [apply D|]. rewrite O3. field. lra.
  - replace (- (0 * r)) with 0 by ring. assert (G : s <= r) by nra.
    destruct (Rle_lt_or_eq_dec _ _ G) as [G'|<-].
    + apply (is_derive_between s (r + 1) _ _ _ (fun _ => 0)); [lra| |apply (is_derive_const (V := R_NormedModule))].
      intros y Hy. apply B. lra.
    + apply (is_derive_glue 0 (s + 1) _ _ _ (fun y => dCe p i j * (y - s) * (y - s)) (fun _ => 0)); [lra| | | | |].
      * replace 0 with (2 * dCe p i j * (s - s)) by ring. apply D.
      * apply (is_derive_const (V := R_NormedModule)).
      * ring.
      * auto.
      * intros y Hy. apply B. lra.
Qed.
