(** Property C09 in binary64. *)
From Coq Require Import ZArith Reals Lra Lia.
From Flocq Require Import Core IEEE754.BinarySingleNaN IEEE754.Binary IEEE754.Bits.
From Verif Require Import DomainModel DomainProofs FpShiftProps CellListFpModel.
Local Open Scope R_scope.

Ltac fval := unfold val; rewrite <- !FF2R_B2FF;
  repeat match goal with |- context [B2FF ?p ?e ?x] =>
    let v := eval vm_compute in (B2FF p e x) in
    replace (B2FF p e x) with v by (vm_compute; reflexivity) end;
  unfold FF2R, F2R; simpl; try lra.

Local Instance fexp64_valid : Valid_exp fexp64 := fexp_correct 53%Z 1024%Z (eq_refl _).
Local Instance fexp64_mono : Monotone_exp fexp64 := fexp_monotone 53%Z 1024%Z.

(** C09 in binary64: a generalized coordinate in [0,1) gives a cell coordinate in range, for any number of cells. *)
Theorem fp_cell_index_in_range :
  forall (k : Z) (n g : binary64), fin n -> fin g -> val n = IZR k -> (1 <= k)%Z -> 0 <= val g < 1 ->
  (0 <= fcell_gen n g < k)%Z.
Proof.
  intros k n g Fn Fg En Hk Hg.
  assert (1 <= IZR k) as Hk1 by (now apply IZR_le).
  pose proof (val_format n) as Nf. pose proof (val_format g) as Gf. rewrite En in Nf.
  assert (F1 : generic_format radix2 fexp64 1).
  { change 1 with (bpow radix2 0). apply generic_format_bpow. unfold SpecFloat.fexp, SpecFloat.emin. lia. }
  assert (G1 : val g <= 1 - bpow radix2 (-53)).
  { assert (val g <= pred radix2 fexp64 1) as H by (apply pred_ge_gt; try typeclasses eauto; tauto).
    replace (pred radix2 fexp64 1) with (1 - bpow radix2 (-53)) in H; [exact H|].
    change 1 with (bpow radix2 0). rewrite pred_bpow. f_equal. }
  assert (Hp1 : / 2 <= pred radix2 fexp64 (IZR k)).
  { apply pred_ge_gt; try typeclasses eauto; [|exact Nf|lra]. change (/ 2) with (bpow radix2 (-1)).
    apply generic_format_bpow. unfold SpecFloat.fexp, SpecFloat.emin. lia. }
  assert (Hplt : pred radix2 fexp64 (IZR k) < IZR k) by (apply pred_lt_id; lra).
  assert (HU : ulp radix2 fexp64 (pred radix2 fexp64 (IZR k)) <= pred radix2 fexp64 (IZR k) * bpow radix2 (-52)).
  { pose proof (ulp_FLT_le radix2 (-1074) 53 (pred radix2 fexp64 (IZR k))) as H. rewrite Rabs_right in H by lra.
    apply H. apply Rle_trans with (2 := Hp1). change (/ 2) with (bpow radix2 (-1)). apply bpow_le. lia. }
  assert (Hsucc : pred radix2 fexp64 (IZR k) + ulp radix2 fexp64 (pred radix2 fexp64 (IZR k)) = IZR k).
  { rewrite <- succ_eq_pos by lra. apply succ_pred; try typeclasses eauto. exact Nf. }
  assert (B52 : bpow radix2 (-52) = 2 * bpow radix2 (-53)) by (change (-52)%Z with (1 + -53)%Z; rewrite bpow_plus; simpl; lra).
  pose proof (bpow_gt_0 radix2 (-53)) as P53.
  assert (HR : 0 <= rnd64 (val g * val n) <= pred radix2 fexp64 (IZR k)).
  { rewrite En. split.
    - apply round_ge_generic; try typeclasses eauto; [apply generic_format_0|]. apply Rmult_le_pos; lra.
    - apply round_N_le_midp; try typeclasses eauto; [apply generic_format_pred; try typeclasses eauto; exact Nf|].
      rewrite succ_pred by (try typeclasses eauto; exact Nf).
      assert (val g * IZR k <= (1 - bpow radix2 (-53)) * IZR k) by (apply Rmult_le_compat_r; lra). nra. }
  assert (V : val (b64_mult mode_NE g n) = rnd64 (val g * val n)).
  { pose proof (Bmult_correct 53%Z 1024%Z (eq_refl _) (eq_refl _) binop_nan_pl64 mode_NE g n) as B.
    rewrite Rlt_bool_true in B; [apply B|]. fold (val g) (val n). rewrite Rabs_right by lra.
    pose proof (val_bound n) as Bn. rewrite En, Rabs_right in Bn by lra. lra. }
  unfold fcell_gen. fold (val (b64_mult mode_NE g n)). rewrite V.
  pose proof (Rtrunc_spec (rnd64 (val g * val n)) (proj1 HR)) as [T1 T2].
  split.
  - assert (IZR (-1) < IZR (Rtrunc (rnd64 (val g * val n)))) as H by lra. apply lt_IZR in H. lia.
  - apply lt_IZR. lra.
Qed.
(** 1 - 2^-53 and three cells. *)
Example fp_cell_index_example :
  let g := b64_of_bits 4607182418800017407 in let n := b64_of_bits 4613937818241073152 in
  fin g /\ fin n /\ val n = IZR 3 /\ 0 <= val g < 1.
Proof. intros g n. unfold g, n. split; [reflexivity|]. split; [reflexivity|]. split; [fval|split; fval]. Qed.

(** But a position inside the box need not have a generalized coordinate in [0,1) in binary64.  In a box of edge 26.25 with 26 cells along the axis (any cutoff in
    (26.25/27, 26.25/26], for instance 1), the largest coordinate below 26.25 is in the primary cell, but its cell
    coordinate is 26, one beyond the last cell. *)
Theorem fp_cell_index_refuted :
  exists len n x : binary64, fin len /\ fin n /\ fin x /\ val len = 105 / 4 /\ val n = 26 /\
    0 <= val x < val len /\ fcell len n x = 26%Z.
Proof.
  exists (b64_of_bits 4628081935820783616), (b64_of_bits 4628011567076605952), (b64_of_bits 4628081935820783615).
  split; [reflexivity|]. split; [reflexivity|]. split; [reflexivity|].
  assert (E1 : val (b64_of_bits 4628081935820783616) = 105 / 4) by fval.
  split; [exact E1|]. split; [fval|]. split; [rewrite E1; split; fval|].
  unfold fcell, fcell_gen. apply Rtrunc_unique; fval.
Qed.
Print Assumptions fp_cell_index_in_range.
Print Assumptions fp_cell_index_refuted.
