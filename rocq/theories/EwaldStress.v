(** The k-space stress: derivative of the k-space energy with respect to a homogeneous deformation. *)
From Coq Require Import Reals Lra.
From Coquelicot Require Import Coquelicot.
From stdpp Require Import gmap.
From Verif Require Import Base Vec3 BoxSpec OrthoModel OrthoSpec OrthoProofs OrthoProps MonoModel MonoSpec MonoProofs MonoProps.
From Verif Require Import SpeciesModel PairListModel EnergyModel EnergySpec EnergyProofs MdModel MdSpec MdProofs GradSpec MdGradSpec MdGradProofs Deriv.
From Verif Require Import EwaldModel EwaldSpec EwaldProofs EwaldForces EwaldGrad.
From Coq Require Import Reals Lra.
Local Open Scope R_scope.

(** * The deformed cell *)
(** 1 + t*E, its determinant, and its matrix of cofactors *)
Definition dm (E : tensor) (t : R) : tensor := tadd tident (tscale t E).
Definition cof (M : tensor) : tensor := V3 (cross (vy M) (vz M)) (cross (vz M) (vx M)) (cross (vx M) (vy M)).

Lemma strain_dm E t v : strain E t v = tapply (dm E t) v.
Proof. destruct E as [[a b c] [d e f] [g h i]], v as [x y z]. unfold strain, dm, tadd, tident, tscale, tapply, vmap, vdot, vadd, vscale. cbn [vx vy vz]. f_equal; ring. Qed.
Lemma cross_apply M u v : cross (tapply M u) (tapply M v) = tapply (cof M) (cross u v).
Proof. destruct M as [[a b c] [d e f] [g h i]], u as [x y z], v as [x' y' z']. unfold cof, tapply, cross, vdot. cbn [vx vy vz]. f_equal; ring. Qed.
Lemma triple_apply M a : triple (vmap (tapply M) a) = triple M * triple a.
Proof. destruct M as [[a' b c] [d e f] [g h i]], a as [[x y z] [x' y' z'] [x2 y2 z2]]. unfold triple, vmap, tapply, cross, vdot. cbn [vx vy vz]. ring. Qed.
Lemma cof_dot M k r : vdot (tapply (cof M) k) (tapply M r) = triple M * vdot k r.
Proof. destruct M as [[a b c] [d e f] [g h i]], k as [x y z], r as [x' y' z']. unfold cof, triple, tapply, cross, vdot. cbn [vx vy vz]. ring. Qed.
Lemma tapply_lin M c u v : tapply M (vadd (vscale c u) v) = vadd (vscale c (tapply M u)) (tapply M v).
Proof. destruct M as [[a b c'] [d e f] [g h i]], u as [x y z], v as [x' y' z']. unfold tapply, vdot, vadd, vscale. cbn [vx vy vz]. f_equal; ring. Qed.

Lemma cell_wavevector a n : wavevector (cell_of a) n = vscale (2 * PI / triple a) (combo (V3 (cross (vy a) (vz a)) (cross (vz a) (vx a)) (cross (vx a) (vy a))) (vmap IZR n)).
Proof. unfold wavevector, lattice_vector, cell_of. cbn [kRecip]. unfold combo, vmap, vadd, vscale. cbn [vx vy vz]. f_equal; ring. Qed.
Lemma strained_wave E t a n : triple a <> 0 -> triple (dm E t) <> 0 ->
  wavevector (strained_cell E t a) n = vscale (/ triple (dm E t)) (tapply (cof (dm E t)) (wavevector (cell_of a) n)).
Proof.
  intros Ha Hd. unfold strained_cell. rewrite !cell_wavevector.
  assert (ES : vmap (strain E t) a = vmap (tapply (dm E t)) a) by (unfold vmap; by rewrite !strain_dm). rewrite ES, triple_apply.
  change (vx (vmap (tapply (dm E t)) a)) with (tapply (dm E t) (vx a)). change (vy (vmap (tapply (dm E t)) a)) with (tapply (dm E t) (vy a)).
  change (vz (vmap (tapply (dm E t)) a)) with (tapply (dm E t) (vz a)). rewrite !cross_apply.
  generalize (cof (dm E t)) (cross (vy a) (vz a)) (cross (vz a) (vx a)) (cross (vx a) (vy a)). revert Ha Hd. generalize (triple (dm E t)) (triple a).
  intros d v Hv Hd C p q r. destruct C as [[c0 c1 c2] [c3 c4 c5] [c6 c7 c8]], p as [p0 p1 p2], q as [q0 q1 q2], r as [r0 r1 r2].
  unfold combo, vmap, tapply, vdot, vadd, vscale. cbn [vx vy vz]. f_equal; field; done.
Qed.
Lemma strained_vol E t a : kVol (strained_cell E t a) = triple (dm E t) * triple a.
Proof.
  unfold strained_cell, cell_of. cbn [kVol]. assert (ES : vmap (strain E t) a = vmap (tapply (dm E t)) a) by (unfold vmap; by rewrite !strain_dm). by rewrite ES, triple_apply.
Qed.
Lemma strained_density E t a n atoms charge pos : triple a <> 0 -> triple (dm E t) <> 0 ->
  density2 atoms charge (fun x => strain E t (pos x)) (wavevector (strained_cell E t a) n) = density2 atoms charge pos (wavevector (cell_of a) n).
Proof.
  intros Ha Hd. rewrite strained_wave by done. unfold density2.
  assert (P : forall r, vdot (vscale (/ triple (dm E t)) (tapply (cof (dm E t)) (wavevector (cell_of a) n))) (strain E t r) = vdot (wavevector (cell_of a) n) r).
  { intros r. rewrite vdot_scale_l, strain_dm, cof_dot. field. done. }
  rewrite (sum_ext (fun x => charge x * cos _) (fun x => charge x * cos (vdot (wavevector (cell_of a) n) (pos x)))) by (intros; by rewrite P).
  by rewrite (sum_ext (fun x => charge x * sin _) (fun x => charge x * sin (vdot (wavevector (cell_of a) n) (pos x)))) by (intros; by rewrite P).
Qed.

(** The box of the model is the cell of its Bravais vectors. *)
Lemma solve3 (a : vec3 (vec3 R)) u v : triple a <> 0 -> (forall i, (i < 3)%nat -> vdot (vget a i) u = vdot (vget a i) v) -> u = v.
Proof.
  intros Ha H. pose proof (H 0%nat ltac:(lia)) as H0. pose proof (H 1%nat ltac:(lia)) as H1. pose proof (H 2%nat ltac:(lia)) as H2. cbn [vget] in *. clear H.
  destruct a as [[a b c] [d e f] [g h i]], u as [x y z], v as [x' y' z']. unfold triple, cross, vdot in *. cbn [vx vy vz] in *.
  assert (HX : (a * (e * i - f * h) + b * (f * g - d * i) + c * (d * h - e * g)) * (x - x') = 0).
  { replace (_ * (x - x')) with ((e * i - f * h) * ((a * x + b * y + c * z) - (a * x' + b * y' + c * z')) + (c * h - b * i) * ((d * x + e * y + f * z) - (d * x' + e * y' + f * z')) +
      (b * f - c * e) * ((g * x + h * y + i * z) - (g * x' + h * y' + i * z'))) by ring. rewrite H0, H1, H2. ring. }
  assert (HY : (a * (e * i - f * h) + b * (f * g - d * i) + c * (d * h - e * g)) * (y - y') = 0).
  { replace (_ * (y - y')) with ((f * g - d * i) * ((a * x + b * y + c * z) - (a * x' + b * y' + c * z')) + (a * i - c * g) * ((d * x + e * y + f * z) - (d * x' + e * y' + f * z')) +
      (c * d - a * f) * ((g * x + h * y + i * z) - (g * x' + h * y' + i * z'))) by ring. rewrite H0, H1, H2. ring. }
  assert (HZ : (a * (e * i - f * h) + b * (f * g - d * i) + c * (d * h - e * g)) * (z - z') = 0).
  { replace (_ * (z - z')) with ((d * h - e * g) * ((a * x + b * y + c * z) - (a * x' + b * y' + c * z')) + (b * g - a * h) * ((d * x + e * y + f * z) - (d * x' + e * y' + f * z')) +
      (a * e - b * d) * ((g * x + h * y + i * z) - (g * x' + h * y' + i * z'))) by ring. rewrite H0, H1, H2. ring. }
  apply Rmult_integral in HX as [HX|HX]; [done|]. apply Rmult_integral in HY as [HY|HY]; [done|]. apply Rmult_integral in HZ as [HZ|HZ]; [done|]. f_equal; lra.
Qed.
Lemma cell_dual a : triple a <> 0 -> forall i j, (i < 3)%nat -> (j < 3)%nat -> vdot (vget a i) (vget (kRecip (cell_of a)) j) = if Nat.eqb i j then 2 * PI else 0.
Proof.
  intros Ha i j Hi Hj. unfold cell_of. cbn [kRecip]. destruct a as [[a b c] [d e f] [g h k]]. unfold triple, cross, vdot in Ha. cbn [vx vy vz] in Ha.
  destruct i as [|[|[|]]], j as [|[|[|]]]; try lia; cbn [Nat.eqb]; unfold vmap, triple, cross, vdot, vscale; cbn [vget vx vy vz]; field; done.
Qed.
Lemma cell_wave kb n : dual_box kb -> wavevector (cell_of (kBrav kb)) n = wavevector kb n.
Proof.
  intros D. assert (HT : triple (kBrav kb) <> 0) by (rewrite <- (db_vol _ D); pose proof (db_pos _ D); lra).
  apply (solve3 (kBrav kb)); [done|]. intros i Hi. unfold wavevector, lattice_vector. rewrite !dot_combo.
  pose proof (cell_dual _ HT i) as C1. pose proof (db_dual _ D i) as C2.
  pose proof (C1 0%nat Hi ltac:(lia)) as A0. pose proof (C1 1%nat Hi ltac:(lia)) as A1. pose proof (C1 2%nat Hi ltac:(lia)) as A2.
  pose proof (C2 0%nat Hi ltac:(lia)) as B0. pose proof (C2 1%nat Hi ltac:(lia)) as B1. pose proof (C2 2%nat Hi ltac:(lia)) as B2.
  cbn [vget] in A0, A1, A2, B0, B1, B2. by rewrite A0, A1, A2, B0, B1, B2.
Qed.

(** * Differentiating one wave *)
Definition trace (E : tensor) : R := vx (vx E) + vy (vy E) + vz (vz E).
Lemma derive_det E : is_derive (fun t => triple (dm E t)) 0 (trace E).
Proof.
  destruct E as [[a b c] [d e f] [g h i]]. unfold triple, dm, tadd, tident, tscale, vmap, cross, vdot, vadd, vscale, trace. cbn [vx vy vz].
  auto_derive; [done|ring].
Qed.
Lemma det_0 E : triple (dm E 0) = 1.
Proof. destruct E as [[a b c] [d e f] [g h i]]. unfold triple, dm, tadd, tident, tscale, vmap, cross, vdot, vadd, vscale. cbn [vx vy vz]. ring. Qed.
Definition cofsq (E : tensor) (k : vec3 R) (t : R) : R := normSq (tapply (cof (dm E t)) k).
Lemma derive_cofsq E k : is_derive (cofsq E k) 0 (2 * trace E * normSq k - 2 * vdot k (tapply E k)).
Proof.
  destruct E as [[a b c] [d e f] [g h i]], k as [x y z].
  unfold cofsq, normSq, cof, tapply, dm, tadd, tident, tscale, vmap, cross, vdot, vadd, vscale, trace. cbn [vx vy vz].
  auto_derive; [done|ring].
Qed.
Lemma cofsq_0 E k : cofsq E k 0 = normSq k.
Proof.
  destruct E as [[a b c] [d e f] [g h i]], k as [x y z].
  unfold cofsq, normSq, cof, tapply, dm, tadd, tident, tscale, vmap, cross, vdot, vadd, vscale. cbn [vx vy vz]. ring.
Qed.
Lemma det_near E : locally 0 (fun t => 0 < triple (dm E t)).
Proof.
  assert (C : continuous (fun t => triple (dm E t)) 0) by (apply (ex_derive_continuous (V := R_NormedModule)); eexists; apply derive_det).
  apply (C (fun y => 0 < y)). rewrite det_0. apply (open_gt 0 1). lra.
Qed.

Lemma derive_influence eps alpha (d c : R -> R) x T v : eps <> 0 -> 0 < alpha -> 0 < x -> d 0 = 1 -> c 0 = x ->
  is_derive d 0 T -> is_derive c 0 (2 * T * x - 2 * v) ->
  is_derive (fun t => / d t * influence eps alpha (/ d t * / d t * c t)) 0 (- influence eps alpha x * (T - 2 * (1 / (4 * alpha ^ 2) + 1 / x) * v)).
Proof.
  intros He Ha Hk E1 E2 D1 D2. unfold influence.
  assert (X1 : ex_derive d 0) by (by eexists). assert (X2 : ex_derive c 0) by (by eexists).
  auto_derive.
  - rewrite E1, E2. repeat split; try done; try lra. apply Rmult_integral_contrapositive_currified; [done|]. rewrite Rinv_1. lra.
  - replace (Derive (fun x0 : R => d x0) 0) with T by (symmetry; by apply is_derive_unique).
    replace (Derive (fun x0 : R => c x0) 0) with (2 * T * x - 2 * v) by (symmetry; by apply is_derive_unique).
    rewrite E1, E2. replace (- (/ 1 * / 1 * x) * / (4 * (alpha * (alpha * 1)))) with (- x / (4 * alpha ^ 2)) by (field; lra).
    generalize (exp (- x / (4 * alpha ^ 2))) as g. intros g. field. lra.
Qed.
Lemma derive_wave eps alpha E k : eps <> 0 -> 0 < alpha -> 0 < normSq k ->
  is_derive (fun t => / triple (dm E t) * influence eps alpha (/ triple (dm E t) * / triple (dm E t) * cofsq E k t)) 0
    (- influence eps alpha (normSq k) * (trace E - 2 * (1 / (4 * alpha ^ 2) + 1 / normSq k) * vdot k (tapply E k))).
Proof.
  intros He Ha Hk. apply (derive_influence eps alpha (fun t => triple (dm E t)) (cofsq E k)); try done; [apply det_0|apply cofsq_0|apply derive_det|apply derive_cofsq].
Qed.

(** * The stress *)
Lemma contract_tadd S T E : contract (tadd S T) E = contract S E + contract T E.
Proof. unfold contract, tadd, vdot, vadd. cbn [vx vy vz]. ring. Qed.
Lemma contract_tscale c S E : contract (tscale c S) E = c * contract S E.
Proof. unfold contract, tscale, vmap, vdot, vscale. cbn [vx vy vz]. ring. Qed.
Lemma contract_ident E : contract tident E = trace E.
Proof. unfold contract, tident, trace, vdot. cbn [vx vy vz]. ring. Qed.
Lemma contract_dyad k E : contract (dyad k k) E = vdot k (tapply E k).
Proof. unfold contract, dyad, tapply, vmap, vdot, vscale. cbn [vx vy vz]. ring. Qed.

Section Stress.
  Context (e : ewald) (kb : kbox) (kc : R) (w : waves) (O : ewald_ok e) (D : dual_box kb) (W : waves_of e kb kc w).
  Context (atoms : list nat) (charge : nat -> R).

  Lemma stress_eq pos : exists S, computeStress e kb atoms charge w pos = Ok S /\
    forall E, contract S E = / (kVol kb * kVol kb) * sum_over (wInt w) (fun n => let k := wavevector kb n in
      influence (eEps e) (eAlpha e) (normSq k) * density2 atoms charge pos k * (trace E - 2 * (1 / (4 * eAlpha e ^ 2) + 1 / normSq k) * vdot k (tapply E k))).
  Proof using O D W.
    unfold computeStress. rewrite (kcharge_eq _ _ D), (wo_g _ _ _ _ W), (wo_ksq _ _ _ _ W).
    set (body n := tscale (kSpacePotential e (normSq (wavevector kb n)) * density2 atoms charge pos (wavevector kb n))
      (tadd tident (tscale (- 2 * (1 / 4 / (eAlpha e * eAlpha e) + 1 / normSq (wavevector kb n))) (dyad (wavevector kb n) (wavevector kb n))))).
    rewrite (foldM_index _ (fun s n => tadd s (body n)) (wInt w) tzero).
    2:{ intros i n s Hi. rewrite (proj2 (aget_Ok _ _ _) Hi). rewrite !(aget_map _ _ _ _ Hi). cbn [obind fst snd]. f_equal. f_equal. unfold body.
        replace (vadd (vadd (vscale (IZR (vx n)) (vx (kRecip kb))) (vscale (IZR (vy n)) (vy (kRecip kb)))) (vscale (IZR (vz n)) (vz (kRecip kb)))) with (wavevector kb n).
        2:{ unfold wavevector, lattice_vector, combo, vmap, vadd, vscale. cbn [vx vy vz]. f_equal; ring. }
        f_equal. unfold density2. fold (cmode atoms charge pos (wavevector kb n)). fold (smode atoms charge pos (wavevector kb n)). ring. }
    cbn [obind]. eexists. split; [done|]. intros E. rewrite contract_tscale. f_equal.
    assert (HF : forall l s, contract (fold_left (fun s n => tadd s (body n)) l s) E = contract s E + sum_over l (fun n => contract (body n) E)).
    { induction l as [|n l IH]; intros s; cbn [fold_left]; [by rewrite sum_nil, Rplus_0_r|]. rewrite IH, contract_tadd, sum_cons. ring. }
    rewrite HF. replace (contract tzero E) with 0 by (unfold contract, tzero, OrthoModel.vzero, vdot; cbn [vx vy vz]; ring). rewrite Rplus_0_l.
    apply sum_ext. intros n _. cbv zeta. unfold body. rewrite contract_tscale, contract_tadd, contract_tscale, contract_ident, contract_dyad, kpot_influence by done.
    replace (1 / 4 / (eAlpha e * eAlpha e)) with (1 / (4 * eAlpha e ^ 2)) by (pose proof (ok_alpha _ O); field; lra). ring.
  Qed.

  Lemma stress_derive pos L S : all_waves kb kc L -> computeStress e kb atoms charge w pos = Ok S -> forall E,
    is_derive (fun t => kspace_energy (eEps e) (eAlpha e) (strained_cell E t (kBrav kb)) L atoms charge (fun a => strain E t (pos a))) 0
      (- (kVol kb * contract S E)).
  Proof using O D W.
    intros HL HS E. destruct (stress_eq pos) as (S' & E' & HC). rewrite HS in E'. injection E' as <-. rewrite HC. clear HC HS.
    assert (HV : 0 < kVol kb) by apply D. assert (HT : triple (kBrav kb) <> 0) by (rewrite <- (db_vol _ D); lra).
    set (c0 := eAlpha e / (4 * PI * sqrt PI * eEps e) * sum_over atoms (fun a => charge a ^ 2)).
    apply (is_derive_ext_loc (fun t => / (2 * kVol kb) * sum_over L (fun n => density2 atoms charge pos (wavevector kb n) *
      (/ triple (dm E t) * influence (eEps e) (eAlpha e) (/ triple (dm E t) * / triple (dm E t) * cofsq E (wavevector kb n) t))) - c0)).
    { eapply filter_imp; [|apply (det_near E)]. intros t Ht. unfold kspace_energy. fold c0. f_equal.
      rewrite strained_vol, <- (db_vol _ D). rewrite <- !sum_scale. apply sum_ext. intros n _.
      rewrite strained_density by (done || lra). rewrite strained_wave by (done || lra). rewrite cell_wave by done.
      replace (normSq (vscale (/ triple (dm E t)) (tapply (cof (dm E t)) (wavevector kb n)))) with (/ triple (dm E t) * / triple (dm E t) * cofsq E (wavevector kb n) t).
      2:{ unfold cofsq, normSq, vdot, vscale. cbn [vx vy vz]. ring. }
      field. lra. }
    eapply is_derive_eq.
    { apply (is_derive_minus (V := R_NormedModule)); [|apply (is_derive_const (V := R_NormedModule))]. apply is_derive_scal.
      apply (derive_sum (fun n t => density2 atoms charge pos (wavevector kb n) * (/ triple (dm E t) * influence (eEps e) (eAlpha e) (/ triple (dm E t) * / triple (dm E t) * cofsq E (wavevector kb n) t)))
        (fun n => density2 atoms charge pos (wavevector kb n) * (- influence (eEps e) (eAlpha e) (normSq (wavevector kb n)) * (trace E - 2 * (1 / (4 * eAlpha e ^ 2) + 1 / normSq (wavevector kb n)) * vdot (wavevector kb n) (tapply E (wavevector kb n)))))).
      intros n Hn. apply is_derive_scal. apply derive_wave; [apply O|apply O|]. apply (proj2 HL) in Hn as [Hn _].
      destruct (Rle_lt_or_eq_dec 0 _ (normSq_nonneg (wavevector kb n))) as [?|HZ]; [done|]. exfalso. apply Hn.
      assert (forall i, (i < 3)%nat -> vget n i = 0%Z) as HI.
      { intros i Hi. pose proof (dual_index _ D n i Hi) as HD. pose proof (cauchy (vget (kBrav kb) i) (wavevector kb n)) as HC. rewrite HD, <- HZ in HC.
        apply eq_IZR. rewrite Rmult_0_r in HC. pose proof PI_RGT_0. assert (HQ : 2 * PI * IZR (vget n i) = 0) by nra. apply Rmult_integral in HQ as [HQ|HQ]; [lra|done]. }
      destruct n as [a b c]. pose proof (HI 0%nat ltac:(lia)). pose proof (HI 1%nat ltac:(lia)). pose proof (HI 2%nat ltac:(lia)). cbn [vget vx vy vz] in *. by subst. }
    match goal with |- Hierarchy.minus ?x _ = ?y => change (x - 0 = y); rewrite Rminus_0_r end.
    rewrite (waves_sum e kb kc w L); [|done..|].
    2:{ intros n. rewrite !normSq_neg, !wavevector_neg, density2_neg. f_equal. f_equal. f_equal. f_equal.
        destruct E as [[a b c] [d f g] [h i j]]. unfold tapply, vdot, vscale. cbn [vx vy vz]. ring. }
    rewrite kdiv_2 by lra. unfold Rdiv at 1. rewrite Rmult_comm, <- sum_scale.
    match goal with |- _ = - ?x => replace (- x) with (- / kVol kb * sum_over (wInt w) (fun n => let k := wavevector kb n in
      influence (eEps e) (eAlpha e) (normSq k) * density2 atoms charge pos k * (trace E - 2 * (1 / (4 * eAlpha e ^ 2) + 1 / normSq k) * vdot k (tapply E k)))) by (cbv zeta; field; lra) end.
    rewrite <- sum_scale. apply sum_ext. intros n _. cbv zeta. ring.
  Qed.
End Stress.
