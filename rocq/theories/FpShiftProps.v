(** Property C02. *)
From Coq Require Import ZArith Reals Lra Lia.
From Flocq Require Import Core Sterbenz IEEE754.BinarySingleNaN IEEE754.Binary IEEE754.Bits.
From Verif Require Import FpShiftModel.
Local Open Scope R_scope.

(** Real value of a binary64 number and finiteness (Flocq). *)
Definition val (x : binary64) : R := B2R 53%Z 1024%Z x.
Definition fin (x : binary64) : Prop := is_finite 53%Z 1024%Z x = true.

Notation fexp64 := (SpecFloat.fexp 53%Z 1024%Z).
Notation rnd64 := (round radix2 fexp64 (round_mode mode_NE)).
Local Instance fexp64_valid : Valid_exp fexp64 := fexp_correct 53%Z 1024%Z (eq_refl _).
Local Instance fexp64_mono : Monotone_exp fexp64 := fexp_monotone 53%Z 1024%Z.

Lemma val_format x : generic_format radix2 fexp64 (val x).
Proof. apply generic_format_B2R. Qed.
Lemma val_bound x : Rabs (val x) < bpow radix2 1024.
Proof. apply abs_B2R_lt_emax. Qed.
Lemma compare_ok x y : fin x -> fin y -> b64_compare x y = Some (Rcompare (val x) (val y)).
Proof. intros. now apply Bcompare_correct. Qed.

Lemma plus_ok x y : fin x -> fin y -> Rabs (rnd64 (val x + val y)) < bpow radix2 1024 ->
  val (b64_plus mode_NE x y) = rnd64 (val x + val y) /\ fin (b64_plus mode_NE x y).
Proof.
  intros Fx Fy H. pose proof (Bplus_correct 53%Z 1024%Z (eq_refl _) (eq_refl _) binop_nan_pl64 mode_NE x y Fx Fy) as B.
  rewrite Rlt_bool_true in B by exact H. destruct B as (B1 & B2 & _). now split.
Qed.
Lemma minus_ok x y : fin x -> fin y -> Rabs (rnd64 (val x - val y)) < bpow radix2 1024 ->
  val (b64_minus mode_NE x y) = rnd64 (val x - val y) /\ fin (b64_minus mode_NE x y).
Proof.
  intros Fx Fy H. pose proof (Bminus_correct 53%Z 1024%Z (eq_refl _) (eq_refl _) binop_nan_pl64 mode_NE x y Fx Fy) as B.
  rewrite Rlt_bool_true in B by exact H. destruct B as (B1 & B2 & _). now split.
Qed.

Lemma rnd_bounds x L : 0 <= x <= val L -> 0 <= rnd64 x <= val L.
Proof.
  intros [H1 H2]. split.
  - apply round_ge_generic; try typeclasses eauto; [apply generic_format_0|exact H1].
  - apply round_le_generic; try typeclasses eauto; [apply val_format|exact H2].
Qed.

(** What does hold: the wrapped coordinate is finite and lies in the closed interval;
    it is strictly below the upper face unless the coordinate was negative.  Missing:
    strictness for negative coordinates, which is false (below). *)
Theorem fp_shift_wraps_partial :
  forall L r : binary64, fin L -> fin r -> 0 < val L -> - val L <= val r < 2 * val L ->
  fin (fshift L r) /\ 0 <= val (fshift L r) <= val L /\
  (0 <= val r -> val (fshift L r) < val L).
Proof.
  intros L r FL Fr HL Hr. unfold fshift.
  rewrite !compare_ok by first [assumption | reflexivity].
  change (val (B754_zero 53%Z 1024%Z false)) with 0.
  pose proof (val_bound L) as BL. rewrite Rabs_right in BL by lra.
  assert (Big : forall x, 0 <= x <= val L -> Rabs (rnd64 x) < bpow radix2 1024).
  { intros x Hx. pose proof (rnd_bounds x L Hx). rewrite Rabs_right; lra. }
  assert (Minus : val L <= val r -> fin (b64_minus mode_NE r L) /\
      0 <= val (b64_minus mode_NE r L) <= val L /\
      (0 <= val r -> val (b64_minus mode_NE r L) < val L)).
  { intros Hge. destruct (minus_ok r L Fr FL) as [V F]; [apply Big; lra|].
    split; [exact F|]. rewrite V. split; [apply rnd_bounds; lra|].
    intros _. rewrite round_generic; try typeclasses eauto; [lra|].
    apply sterbenz; try typeclasses eauto; try apply val_format. lra. }
  destruct (Rcompare_spec (val r) (val L)) as [C|C|C].
  - destruct (Rcompare_spec (val r) 0) as [D|D|D].
    + destruct (plus_ok r L Fr FL) as [V F]; [apply Big; lra|].
      split; [exact F|]. rewrite V. split; [apply rnd_bounds; lra|]. intros. lra.
    + split; [exact Fr|]. lra.
    + split; [exact Fr|]. lra.
  - apply Minus. lra.
  - apply Minus. lra.
Qed.

(** The smallest negative number. *)
Definition tiny : binary64 := B754_finite 53%Z 1024%Z true 1 (-1074) (eq_refl _).

Lemma val_tiny : val tiny = - bpow radix2 (-1074).
Proof. unfold val, B2R, tiny, F2R. simpl Fnum. simpl Fexp. simpl. lra. Qed.

(** C02 refuted, and not only for exotic boxes: in every box whose edge is at least
    2^-1000, the coordinate -2^-1074, just below the lower face, is wrapped onto the
    upper face, which is not in the primary cell. *)
Theorem fp_shift_upper_face_refuted :
  forall L : binary64, fin L -> bpow radix2 (-1000) <= val L ->
  exists r : binary64, fin r /\ - val L <= val r < 0 /\ val (fshift L r) = val L.
Proof.
  intros L FL HL. exists tiny.
  assert (P0 : 0 < bpow radix2 (-1074)) by apply bpow_gt_0.
  assert (P1 : 0 < bpow radix2 (-1000)) by apply bpow_gt_0.
  assert (P2 : bpow radix2 (-1074) < bpow radix2 (-1000)) by (apply bpow_lt; lia).
  split; [reflexivity|]. rewrite val_tiny. split; [lra|].
  unfold fshift. rewrite !compare_ok by first [assumption | reflexivity].
  change (val (B754_zero 53%Z 1024%Z false)) with 0.
  rewrite val_tiny. rewrite !Rcompare_Lt by lra.
  assert (E : rnd64 (- bpow radix2 (-1074) + val L) = val L).
  { apply Rle_antisym.
    - apply round_le_generic; try typeclasses eauto; [apply val_format|lra].
    - apply round_N_ge_midp; try typeclasses eauto; [apply val_format|].
      assert (F1 : generic_format radix2 fexp64 (bpow radix2 (-1001))).
      { apply generic_format_bpow. unfold SpecFloat.fexp, SpecFloat.emin. lia. }
      assert (Hp : bpow radix2 (-1001) <= pred radix2 fexp64 (val L)).
      { apply pred_ge_gt; try typeclasses eauto; [exact F1|apply val_format|].
        apply Rlt_le_trans with (2 := HL). apply bpow_lt. lia. }
      pose proof (bpow_gt_0 radix2 (-1001)) as P3.
      assert (S : pred radix2 fexp64 (val L) + ulp radix2 fexp64 (pred radix2 fexp64 (val L)) = val L).
      { rewrite <- succ_eq_pos by lra. apply succ_pred; try typeclasses eauto. apply val_format. }
      assert (U : ulp radix2 fexp64 (bpow radix2 (-1001)) <= ulp radix2 fexp64 (pred radix2 fexp64 (val L))).
      { apply ulp_le_pos; try typeclasses eauto; lra. }
      rewrite ulp_bpow in U.
      replace (fexp64 (-1001 + 1)) with (-1053)%Z in U by (unfold SpecFloat.fexp, SpecFloat.emin; lia).
      assert (Q : 4 * bpow radix2 (-1074) <= bpow radix2 (-1053)).
      { replace 4 with (bpow radix2 2) by (simpl; lra). rewrite <- bpow_plus. apply bpow_le. lia. }
      lra. }
  destruct (plus_ok tiny L) as [V F]; auto; try reflexivity.
  - rewrite val_tiny, E. apply val_bound.
  - rewrite V, val_tiny. exact E.
Qed.

(** A box of edge 10 and the coordinate 12.5. *)
Example fp_shift_example :
  let L := b64_of_bits 4621819117588971520 in
  let r := b64_of_bits 4623226492472524800 in
  fin L /\ fin r /\ val L = 10 /\ val r = 25 / 2 /\ val (fshift L r) = 5 / 2.
Proof.
  intros L r. split; [reflexivity|]. split; [reflexivity|].
  unfold val, L, r. rewrite <- !FF2R_B2FF.
  repeat match goal with |- context [B2FF ?p ?e ?x] =>
    let v := eval vm_compute in (B2FF p e x) in
    replace (B2FF p e x) with v by (vm_compute; reflexivity) end.
  unfold FF2R, F2R; simpl; lra.
Qed.

Print Assumptions fp_shift_wraps_partial.
Print Assumptions fp_shift_upper_face_refuted.
