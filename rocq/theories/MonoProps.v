(** Property C05, the monoclinic parts of C04 and C06, and C54. *)
From Verif Require Import Base Vec3 OrthoModel BoxSpec OrthoProofs BoxIoModel MonoModel MonoSpec MonoProofs.
From Coq Require Import Reals Lra.
Local Open Scope R_scope.

(** C04, monoclinic. *)
Theorem mono_transforms_inverse :
  forall b, a_mbox b ->
  (forall r, mono_genToCart b (mono_cartToGen b r) = r) /\
  (forall g, mono_cartToGen b (mono_genToCart b g) = g) /\
  (forall g, mono_genToCart b g = combo (mBrav b) g) /\
  (forall r n, mono_cartToGen b (vadd r (lattice_vector (mBrav b) n)) =
               vadd (mono_cartToGen b r) (vmap IZR n)) /\
  (forall r t, applyMonoShifts b r t = vadd r (lattice_vector (mBrav b) t)) /\
  (forall r, in_cell_of (mBrav b) r <->
             forall i, (i < 3)%nat -> 0 <= vget (mono_cartToGen b r) i < 1).
Proof.
  intros b Hb. destruct (mwf_a_mbox b Hb) as ([x y z] & d & W).
  pose proof (m_pos _ _ _ W) as (Px & Py & Pz). simpl in Px, Py, Pz.
  assert (A1 : forall r, mono_genToCart b (mono_cartToGen b r) = r).
  { intros [u v w]. unfold mono_genToCart, mono_cartToGen.
    rewrite (m_l _ _ _ W), (m_inv _ _ _ W), (m_d _ _ _ W), (m_c3 _ _ _ W). simpl. f_equal; field; lra. }
  assert (A2 : forall g, mono_cartToGen b (mono_genToCart b g) = g).
  { intros [u v w]. unfold mono_genToCart, mono_cartToGen.
    rewrite (m_l _ _ _ W), (m_inv _ _ _ W), (m_d _ _ _ W), (m_c3 _ _ _ W). simpl. f_equal; field; lra. }
  assert (A3 : forall g, mono_genToCart b g = combo (mBrav b) g).
  { intros g. rewrite (m_brav _ _ _ W), (combo_mono (V3 x y z) d).
    unfold mono_genToCart. by rewrite (m_l _ _ _ W), (m_d _ _ _ W). }
  split; [done|]. split; [done|]. split; [done|]. split; [|split].
  - intros [u v w] [n0 n1 n2]. unfold lattice_vector. rewrite (m_brav _ _ _ W), (combo_mono (V3 x y z) d).
    unfold mono_cartToGen. rewrite (m_inv _ _ _ W), (m_c3 _ _ _ W).
    unfold vadd, vmap. simpl. f_equal; field; lra.
  - intros [u v w] [n0 n1 n2]. unfold lattice_vector. rewrite (m_brav _ _ _ W), (combo_mono (V3 x y z) d).
    unfold applyMonoShifts, mono_applyShift. rewrite (m_l _ _ _ W), (m_d _ _ _ W).
    unfold vadd, vmap. simpl. f_equal; ring.
  - intros r. split.
    + intros (g & -> & Hg). by rewrite <- A3, A2.
    + intros H. exists (mono_cartToGen b r). by rewrite <- A3, A1.
Qed.

(** C06, monoclinic. *)
Theorem mono_basis_dual :
  forall ops, Forall mono_op_ok ops ->
  let b := mbox ops in
  mL b = (params ops).1 /\ mD b = (params ops).2 /\
  (forall i j, (i < 3)%nat -> (j < 3)%nat ->
     vdot (vget (mBrav b) i) (vget (mRecip b) j) = if Nat.eqb i j then 2 * PI else 0) /\
  mVol b = triple (mBrav b) /\ 0 < mVol b /\
  (* length(i) is the distance between the faces of the cell that a_i crosses *)
  (forall i, (i < 3)%nat ->
     vget (mLengths b) i = 2 * PI / sqrt (normSq (vget (mRecip b) i))) /\
  (forall feq, (forall x, feq x x = true) -> mono_isValid feq b = true).
Proof.
  intros ops H b. pose proof (mwf_box ops H) as W. fold b in W.
  destruct (params ops) as [[x y z] d]. cbn [fst snd] in *.
  pose proof (m_pos _ _ _ W) as (Px & Py & Pz). simpl in Px, Py, Pz.
  assert (PP : 0 < 2 * PI) by (pose proof PI_RGT_0; lra).
  split; [apply W|]. split; [apply W|]. split; [|split; [|split; [|split]]].
  - intros i j Hi Hj. rewrite (m_brav _ _ _ W), (m_recip _ _ _ W). unfold vdot.
    destruct i as [|[|[|]]], j as [|[|[|]]]; try lia; simpl; field; lra.
  - rewrite (m_vol _ _ _ W), (m_brav _ _ _ W). unfold triple, vdot, cross. simpl. ring.
  - rewrite (m_vol _ _ _ W). simpl. apply Rmult_lt_0_compat; [|done]. by apply Rmult_lt_0_compat.
  - intros i Hi. rewrite (m_lens _ _ _ W), (m_recip _ _ _ W).
    destruct i as [|[|[|]]]; [| | |lia].
    + unfold normSq, vdot. cbn [vget vx vy vz].
      replace (2 * PI / x * (2 * PI / x) + 0 * 0 + 0 * 0) with (Rsqr (2 * PI / x)) by (unfold Rsqr; ring).
      rewrite sqrt_Rsqr; [field; lra|]. apply Rlt_le, Rdiv_lt_0_compat; lra.
    + unfold normSq, vdot. cbn [vget vx vy vz].
      replace (0 * 0 + 2 * PI / y * (2 * PI / y) + 0 * 0) with (Rsqr (2 * PI / y)) by (unfold Rsqr; ring).
      rewrite sqrt_Rsqr; [field; lra|]. apply Rlt_le, Rdiv_lt_0_compat; lra.
    + unfold normSq, vdot. cbn [vget vx vy vz].
      replace (0 * 0 + - (2 * PI) * d / (y * z) * (- (2 * PI) * d / (y * z)) + 2 * PI / z * (2 * PI / z))
        with (Rsqr (2 * PI / z) * (1 + - d / y * (- d / y))) by (unfold Rsqr; field; lra).
      assert (S : 0 < 1 + - d / y * (- d / y)).
      { assert (0 <= - d / y * (- d / y)) by (apply Rle_0_sqr). lra. }
      rewrite sqrt_mult; [|apply Rle_0_sqr|lra].
      rewrite sqrt_Rsqr by (apply Rlt_le, Rdiv_lt_0_compat; lra).
      pose proof (sqrt_lt_R0 _ S). field. lra.
  - intros feq Hfeq. unfold mono_isValid, dot.
    rewrite (m_brav _ _ _ W), (m_recip _ _ _ W), (m_min _ _ _ W), (m_max _ _ _ W),
      (m_l _ _ _ W), (m_half _ _ _ W), (m_vol _ _ _ W), (m_inv _ _ _ W).
    unfold vzero. cbn [vx vy vz vget forallb Nat.eqb].
    assert (F : forall u v, u = v -> feq u v = true) by (intros ? ? ->; apply Hfeq).
    destruct (Rle_dec x 0); [lra|]. destruct (Rle_dec y 0); [lra|]. destruct (Rle_dec z 0); [lra|].
    rewrite !F by (field; lra). done.
Qed.

(** C05, wrapping: any position less than one cell away is brought into the cell; the
    counters record the lattice vector removed; applyShift with them restores the
    position; the overload without counters agrees; wrapping again changes nothing. *)
Theorem mono_shift_wraps :
  forall b r s r' s', a_mbox b -> near_cell_of (mBrav b) r ->
  mono_shift b r s = (r', s') ->
  in_cell_of (mBrav b) r' /\
  r = vadd r' (lattice_vector (mBrav b) (V3 (vx s' - vx s) (vy s' - vy s) (vz s' - vz s))%Z) /\
  applyMonoShifts b r' (V3 (vx s' - vx s) (vy s' - vy s) (vz s' - vz s))%Z = r /\
  mono_shift1 b r = r' /\ mono_shift b r' s' = (r', s').
Proof.
  intros b r s r' s' Hb (g & Hg & Hr) E.
  destruct (mono_transforms_inverse b Hb) as (_ & _ & _ & _ & AS & IC).
  destruct (mwf_a_mbox b Hb) as (l & d & W).
  pose proof (mono_shift1_eq b r s) as E1. rewrite E in E1.
  rewrite (mono_shift_axes b l d r s W) in E.
  pose proof (m_pos _ _ _ W) as (Px & Py & Pz).
  rewrite (m_brav _ _ _ W), combo_mono in Hg.
  pose proof (Hr 0%nat ltac:(lia)) as H0. pose proof (Hr 1%nat ltac:(lia)) as H1.
  pose proof (Hr 2%nat ltac:(lia)) as H2. cbn [vget] in H0, H1, H2.
  destruct (shift_axis 0 (vx l) (vx l) (vx r) (vx s)) as [x sx] eqn:EX.
  destruct (shift_axis 0 (vy l) (vy l) (vy r) (vy s)) as [y sy] eqn:EY.
  cbn [fst snd] in E.
  destruct (shift_axis_spec (vx l) (vx r) (vx s) x sx Px) as (X1 & X2 & X3 & X4);
    [rewrite Hg; simpl; nra|done|].
  destruct (shift_axis_spec (vy l) (vy r) (vy s) y sy Py) as (Y1 & Y2 & Y3 & Y4);
    [rewrite Hg; simpl; nra|done|].
  assert (U0 : vz r - IZR (sy - vy s) * d - d / vy l * y = vz g * vz l).
  { assert (Ey : vy g * vy l = y + IZR (sy - vy s) * vy l) by (rewrite <- Y2, Hg; done).
    replace (vz r) with (vz g * vz l + vy g * d) by (rewrite Hg; done).
    assert (Eg : vy g = y / vy l + IZR (sy - vy s)).
    { apply (Rmult_eq_reg_r (vy l)); [|lra]. rewrite Ey. field. lra. }
    rewrite Eg. field. lra. }
  rewrite U0 in E.
  destruct (shift_axis 0 (vz l) (vz l) (vz g * vz l) (vz s)) as [u sz] eqn:EU.
  destruct (shift_axis_spec (vz l) (vz g * vz l) (vz s) u sz Pz) as (Z1 & Z2 & Z3 & Z4);
    [nra|done|].
  cbn [fst snd] in E. injection E as Er Es.
  assert (Ez : vz r' + - d / vy l * vy r' = u).
  { rewrite <- Er. cbn [vx vy vz]. rewrite <- (Rplus_0_r u).
    replace (vz r - IZR (sy - vy s) * d) with (vz g * vz l + d / vy l * y) by lra.
    rewrite Z2. unfold Rdiv. ring. }
  assert (Inv : forall a L, 0 < L -> 0 <= a < L -> 0 <= a * / L < 1).
  { intros a L HL [Ha1 Ha2]. assert (0 < / L) by (by apply Rinv_0_lt_compat).
    assert (EL : L * / L = 1) by (field; lra). split; [apply Rmult_le_pos; lra|].
    rewrite <- EL. by apply Rmult_lt_compat_r. }
  assert (Hadd : r = vadd r' (lattice_vector (mBrav b) (V3 (vx s' - vx s) (vy s' - vy s) (vz s' - vz s))%Z)).
  { unfold lattice_vector. rewrite (m_brav _ _ _ W), combo_mono, <- Er, <- Es.
    unfold vadd, vmap. cbn [vx vy vz]. destruct r as [rx ry rz]. cbn [vx vy vz] in *.
    f_equal; lra. }
  split; [|split; [done|split; [|split]]].
  - apply IC. intros i Hi. unfold mono_cartToGen. rewrite (m_inv _ _ _ W), (m_c3 _ _ _ W).
    rewrite Ez. rewrite <- Er. destruct i as [|[|[|]]]; [| | |lia]; cbn [vget vx vy vz]; by apply Inv.
  - rewrite AS. done.
  - done.
  - rewrite (mono_shift_axes b l d r' s' W).
    replace (vx r') with x by (by rewrite <- Er). replace (vy r') with y by (by rewrite <- Er).
    replace (vx s') with sx by (by rewrite <- Es). replace (vy s') with sy by (by rewrite <- Es).
    replace (vz s') with sz by (by rewrite <- Es).
    rewrite X4, Y4. cbn [fst snd].
    replace (IZR (sy - sy)) with 0 by (f_equal; lia).
    replace (vz r' - 0 * d - d / vy l * y) with u
      by (rewrite <- Ez, <- Er; cbn [vx vy vz]; unfold Rdiv; ring).
    rewrite Z4. cbn [fst snd]. replace (IZR (sz - sz)) with 0 by (f_equal; lia).
    rewrite <- Er, <- Es. f_equal. f_equal. simpl. ring.
Qed.

(** C05, separations.  For positions less than 3/2 of a cell apart in generalized
    coordinates: the overloads agree; dr differs from r1 - r2 by the reported lattice
    translation; distanceSq is its squared length and is symmetric.

    Missing from the full statement, and false (see below): that the value is the
    minimum over all images.  What holds: whenever some image is closer than half of
    minLength(), distanceSq finds it, so comparison with a cutoff of at most half of
    minLength() is right. *)
Theorem mono_distanceSq_image_partial :
  forall b r1 r2, a_mbox b ->
  (forall i, (i < 3)%nat ->
     Rabs (vget (mono_cartToGen b r1) i - vget (mono_cartToGen b r2) i) <= 3/2) ->
  let (d, t) := mono_distanceSq_shift b r1 r2 in
  let (d', dr) := mono_distanceSq_dr b r1 r2 in
  d = mono_distanceSq b r1 r2 /\ d' = d /\
  dr = vadd (vsub r1 r2) (lattice_vector (mBrav b) t) /\
  d = normSq dr /\
  mono_distanceSq b r2 r1 = d /\
  (mono_distanceSq_dr b r2 r1).2 = vscale (-1) dr /\
  (forall n : vec3 Z, let v := vadd (vsub r1 r2) (lattice_vector (mBrav b) n) in
     normSq v < (mMinLen b / 2) * (mMinLen b / 2) -> d = normSq v /\ dr = v).
Proof.
  intros b r1 r2 Hb Hr. destruct (mwf_a_mbox b Hb) as (l & d & W).
  pose proof (m_pos _ _ _ W) as (Px & Py & Pz).
  unfold mono_distanceSq_shift, mono_distanceSq_dr, mono_distanceSq.
  rewrite !(mono_sep_axes b l d _ _ W).
  set (w1 := vz r1 - d / vy l * vy r1) in *. set (w2 := vz r2 - d / vy l * vy r2) in *.
  assert (Hx : Rabs (vx r1 - vx r2) <= 3/2 * vx l).
  { specialize (Hr 0%nat ltac:(lia)). unfold mono_cartToGen in Hr. rewrite (m_inv _ _ _ W) in Hr.
    cbn [vget vx] in Hr. replace (vx r1 * / vx l - vx r2 * / vx l) with ((vx r1 - vx r2) * / vx l) in Hr by ring.
    rewrite Rabs_mult, (Rabs_right (/ vx l)) in Hr by (apply Rle_ge, Rlt_le, Rinv_0_lt_compat; lra).
    apply (Rmult_le_compat_r (vx l)) in Hr; [|lra]. rewrite Rmult_assoc, Rinv_l in Hr by lra. lra. }
  assert (Hy : Rabs (vy r1 - vy r2) <= 3/2 * vy l).
  { specialize (Hr 1%nat ltac:(lia)). unfold mono_cartToGen in Hr. rewrite (m_inv _ _ _ W) in Hr.
    cbn [vget vy] in Hr. replace (vy r1 * / vy l - vy r2 * / vy l) with ((vy r1 - vy r2) * / vy l) in Hr by ring.
    rewrite Rabs_mult, (Rabs_right (/ vy l)) in Hr by (apply Rle_ge, Rlt_le, Rinv_0_lt_compat; lra).
    apply (Rmult_le_compat_r (vy l)) in Hr; [|lra]. rewrite Rmult_assoc, Rinv_l in Hr by lra. lra. }
  assert (Hw : Rabs (w1 - w2) <= 3/2 * vz l).
  { specialize (Hr 2%nat ltac:(lia)). unfold mono_cartToGen in Hr.
    rewrite (m_inv _ _ _ W), (m_c3 _ _ _ W) in Hr.
    cbn [vget vz] in Hr.
    replace ((vz r1 + - d / vy l * vy r1) * / vz l - (vz r2 + - d / vy l * vy r2) * / vz l)
      with ((w1 - w2) * / vz l) in Hr by (unfold w1, w2, Rdiv; ring).
    rewrite Rabs_mult, (Rabs_right (/ vz l)) in Hr by (apply Rle_ge, Rlt_le, Rinv_0_lt_compat; lra).
    apply (Rmult_le_compat_r (vz l)) in Hr; [|lra]. rewrite Rmult_assoc, Rinv_l in Hr by lra. lra. }
  destruct (sep_axis_sym (vx l) (vx r1) (vx r2) Px) as [QX QX2].
  destruct (sep_axis_sym (vy l) (vy r1) (vy r2) Py) as [QY QY2].
  destruct (sep_axis_sym (vz l) w1 w2 Pz) as [QU QU2].
  destruct (sep_axis (vx l / 2) (vx l) (vx r1) (vx r2)) as [dx tx] eqn:EX.
  destruct (sep_axis (vy l / 2) (vy l) (vy r1) (vy r2)) as [dy ty] eqn:EY.
  destruct (sep_axis (vz l / 2) (vz l) w1 w2) as [u tu] eqn:EU.
  rewrite QX, QY, QY2, QU2. cbn [fst snd vx vy vz].
  apply sep_axis_spec in EX as (X1 & X2 & _); [|done|done].
  apply sep_axis_spec in EY as (Y1 & Y2 & _); [|done|done].
  apply sep_axis_spec in EU as (U1 & U2 & _); [|done|done].
  set (dz := vz r1 - vz r2 + IZR ty * d + IZR tu * vz l).
  assert (Ez : vz r2 - vz r1 + IZR (- ty) * d + IZR (- tu) * vz l = - dz).
  { unfold dz. rewrite !opp_IZR. ring. }
  rewrite Ez.
  assert (LV : forall n, vadd (vsub r1 r2) (lattice_vector (mBrav b) n) =
     V3 (vx r1 - vx r2 + IZR (vx n) * vx l) (vy r1 - vy r2 + IZR (vy n) * vy l)
        (vz r1 - vz r2 + IZR (vy n) * d + IZR (vz n) * vz l)).
  { intros n. unfold lattice_vector. rewrite (m_brav _ _ _ W), combo_mono.
    unfold vadd, vsub, vmap. simpl. f_equal; ring. }
  assert (Edr : V3 dx dy dz = vadd (vsub r1 r2) (lattice_vector (mBrav b) (V3 tx ty tu))).
  { rewrite LV. cbn [vx vy vz]. f_equal; lra. }
  split; [done|]. split; [done|]. split; [done|]. split; [done|].
  split; [ring|]. split.
  { unfold vscale. simpl. f_equal; ring. }
  intros n. set (v := vadd (vsub r1 r2) (lattice_vector (mBrav b) n)). intros Hv.
  assert (Emin : mMinLen b = Rmin (vx l) (Rmin (vy l) (vz l / sqrt (1 + (- d / vy l) * (- d / vy l))))).
  { rewrite (m_minlen _ _ _ W), min_length_spec, (m_lens _ _ _ W). done. }
  set (c := - d / vy l) in *.
  assert (Sc : 0 < 1 + c * c) by (assert (0 <= c * c) by apply Rle_0_sqr; lra).
  pose proof (sqrt_lt_R0 _ Sc) as Sq.
  assert (Ssq : sqrt (1 + c * c) * sqrt (1 + c * c) = 1 + c * c) by (apply sqrt_def; lra).
  assert (Pm : 0 < mMinLen b).
  { rewrite Emin. repeat apply Rmin_glb_lt; try done. by apply Rdiv_lt_0_compat. }
  assert (M1 : mMinLen b <= vx l) by (rewrite Emin; apply Rmin_l).
  assert (M2 : mMinLen b <= vy l) by (rewrite Emin; eapply Rle_trans; [apply Rmin_r|apply Rmin_l]).
  assert (M3 : mMinLen b * sqrt (1 + c * c) <= vz l).
  { assert (mMinLen b <= vz l / sqrt (1 + c * c))
      by (rewrite Emin; eapply Rle_trans; [apply Rmin_r|apply Rmin_r]).
    apply (Rmult_le_compat_r (sqrt (1 + c * c))) in H; [|lra].
    unfold Rdiv in H. rewrite Rmult_assoc, Rinv_l in H by lra. lra. }
  assert (Sqlt : forall a B, 0 < B -> a * a < B * B -> - B < a < B).
  { intros a B HB H. split; nra. }
  assert (Vn : normSq v = vx v * vx v + vy v * vy v + vz v * vz v) by (by destruct v).
  rewrite Vn in Hv.
  assert (P0 : 0 <= vx v * vx v) by apply Rle_0_sqr.
  assert (P1 : 0 <= vy v * vy v) by apply Rle_0_sqr.
  assert (P2 : 0 <= vz v * vz v) by apply Rle_0_sqr.
  assert (V0 : - (vx l / 2) < vx v < vx l / 2).
  { destruct (Sqlt (vx v) (mMinLen b / 2)) as [? ?]; lra. }
  assert (V1 : - (vy l / 2) < vy v < vy l / 2).
  { destruct (Sqlt (vy v) (mMinLen b / 2)) as [? ?]; lra. }
  assert (V2 : - (vz l / 2) < vz v + c * vy v < vz l / 2).
  { destruct (Sqlt (vz v + c * vy v) (mMinLen b / 2 * sqrt (1 + c * c))) as [? ?].
    - apply Rmult_lt_0_compat; lra.
    - replace (mMinLen b / 2 * sqrt (1 + c * c) * (mMinLen b / 2 * sqrt (1 + c * c))) with
        ((mMinLen b / 2) * (mMinLen b / 2) * (1 + c * c)) by (set (q := sqrt (1 + c * c)) in *; rewrite <- Ssq; ring).
      assert (CS : (vz v + c * vy v) * (vz v + c * vy v) <= (vy v * vy v + vz v * vz v) * (1 + c * c)).
      { assert (0 <= (vy v - c * vz v) * (vy v - c * vz v)) by apply Rle_0_sqr. nra. }
      eapply Rle_lt_trans; [exact CS|]. apply Rmult_lt_compat_r; lra.
    - lra. }
  unfold v in V0, V1, V2. rewrite LV in V0, V1, V2. cbn [vx vy vz] in V0, V1, V2.
  assert (Uniq : forall a L (k m : Z), 0 < L -> Rabs (a + IZR m * L) <= L / 2 ->
     - (L / 2) < a + IZR k * L < L / 2 -> k = m).
  { intros a L k m HL Ha Hk. assert (Ha2 : - (L / 2) <= a + IZR m * L <= L / 2) by (revert Ha; unfold Rabs; destruct (Rcase_abs (a + IZR m * L)); lra).
    assert (D : - L < IZR (k - m) * L < L) by (rewrite minus_IZR; lra).
    assert (-1 < IZR (k - m) < 1) by (split; nra).
    destruct H as [D1 D2]. apply (lt_IZR (-1)) in D1. apply lt_IZR in D2. lia. }
  assert (N0 : vx n = tx) by (apply (Uniq (vx r1 - vx r2) (vx l)); [done|by rewrite <- X1|done]).
  assert (N1 : vy n = ty) by (apply (Uniq (vy r1 - vy r2) (vy l)); [done|by rewrite <- Y1|done]).
  assert (N2 : vz n = tu).
  { apply (Uniq (w1 - w2) (vz l)); [done|by rewrite <- U1|].
    replace (w1 - w2 + IZR (vz n) * vz l) with
      (vz r1 - vz r2 + IZR (vy n) * d + IZR (vz n) * vz l + c * (vy r1 - vy r2 + IZR (vy n) * vy l)); [done|].
    unfold w1, w2, c. field. lra. }
  assert (Ev : V3 dx dy dz = v).
  { unfold v. rewrite Edr. f_equal. f_equal. destruct n as [n0 n1 n2]. simpl in *. by subst. }
  rewrite <- Ev. done.
Qed.

(** C05, the minimum image: false of every box with nonzero tilt, however small. *)
Theorem mono_min_image_refuted :
  forall l d, positive3 l -> d <> 0 ->
  let b := mbox [SetMono l d] in
  exists r1 r2 n, in_cell_of (mBrav b) r1 /\ in_cell_of (mBrav b) r2 /\
    normSq (vadd (vsub r1 r2) (lattice_vector (mBrav b) n)) < mono_distanceSq b r1 r2.
Proof.
  intros l d P Hd b.
  assert (Ho : Forall mono_op_ok [SetMono l d]) by (apply Forall_cons; split; [exact P|constructor]).
  pose proof (mwf_box _ Ho) as W. fold b in W. simpl in W. pose proof P as (Px & Py & Pz).
  assert (IC : forall g, (forall i, (i < 3)%nat -> 0 <= vget g i < 1) ->
     in_cell_of (mBrav b) (V3 (vx g * vx l) (vy g * vy l) (vz g * vz l + vy g * d))).
  { intros g Hg. exists g. split; [|done]. by rewrite (m_brav _ _ _ W), combo_mono. }
  assert (Dist : forall r1 r2, vx r1 = vx r2 -> Rabs (vy r1 - vy r2) <= vy l / 2 ->
     Rabs (vz r1 - vz r2 - d / vy l * (vy r1 - vy r2)) <= vz l / 2 ->
     mono_distanceSq b r1 r2 = (vy r1 - vy r2) * (vy r1 - vy r2) + (vz r1 - vz r2) * (vz r1 - vz r2)).
  { intros r1 r2 Ex Hy Hz. unfold mono_distanceSq. rewrite (mono_sep_axes _ _ _ _ _ W).
    unfold sep_axis. rewrite Ex.
    replace (vx r2 - vx r2) with 0 by ring. rewrite Rabs_R0.
    destruct (Rgt_dec 0 (vx l / 2)); [lra|].
    destruct (Rgt_dec (Rabs (vy r1 - vy r2)) (vy l / 2)); [lra|].
    replace (vz r1 - d / vy l * vy r1 - (vz r2 - d / vy l * vy r2)) with
      (vz r1 - vz r2 - d / vy l * (vy r1 - vy r2)) by ring.
    destruct (Rgt_dec (Rabs (vz r1 - vz r2 - d / vy l * (vy r1 - vy r2))) (vz l / 2)); [lra|].
    simpl. ring. }
  assert (Hhalf : forall i, (i < 3)%nat -> 0 <= vget (V3 0 (1/2) (1/2)) i < 1).
  { intros [|[|[|]]]; simpl; intros; try lia; lra. }
  assert (Hhalf2 : forall i, (i < 3)%nat -> 0 <= vget (V3 0 (1/2) 0) i < 1).
  { intros [|[|[|]]]; simpl; intros; try lia; lra. }
  assert (Hhalf3 : forall i, (i < 3)%nat -> 0 <= vget (V3 0 0 (1/2)) i < 1).
  { intros [|[|[|]]]; simpl; intros; try lia; lra. }
  assert (Hzero : forall i, (i < 3)%nat -> 0 <= vget (V3 0 0 0) i < 1).
  { intros [|[|[|]]]; simpl; intros; try lia; lra. }
  destruct (Rlt_dec 0 d) as [Hp|Hn].
  - eexists _, _, (V3 0 0 (-1))%Z. split; [apply (IC _ Hhalf)|]. split; [apply (IC _ Hzero)|].
    unfold lattice_vector. rewrite (m_brav _ _ _ W), combo_mono. rewrite Dist; cbn [vx vy vz].
    + unfold normSq, vdot, vadd, vsub, vmap. cbn [vx vy vz]. nra.
    + ring.
    + replace (1 / 2 * vy l - 0 * vy l) with (vy l / 2) by (unfold Rdiv; ring). rewrite Rabs_right; lra.
    + replace (1 / 2 * vz l + 1 / 2 * d - (0 * vz l + 0 * d) - d / vy l * (1 / 2 * vy l - 0 * vy l))
        with (vz l / 2) by (field; lra). rewrite Rabs_right; lra.
  - eexists _, _, (V3 0 0 1)%Z. split; [apply (IC _ Hhalf2)|]. split; [apply (IC _ Hhalf3)|].
    unfold lattice_vector. rewrite (m_brav _ _ _ W), combo_mono. rewrite Dist; cbn [vx vy vz].
    + unfold normSq, vdot, vadd, vsub, vmap. cbn [vx vy vz]. nra.
    + ring.
    + replace (1 / 2 * vy l - 0 * vy l) with (vy l / 2) by (unfold Rdiv; ring). rewrite Rabs_right; lra.
    + replace (0 * vz l + 1 / 2 * d - (1 / 2 * vz l + 0 * d) - d / vy l * (1 / 2 * vy l - 0 * vy l))
        with (- (vz l / 2)) by (field; lra). rewrite Rabs_left; lra.
Qed.

(** C54: output and input of a monoclinic boundary, on all three paths. *)
Theorem mono_io_round_trip :
  forall ops b2, Forall mono_op_ok ops -> a_mbox b2 ->
  (forall rnd rest, (forall x, 0 < x -> 0 < rnd x) ->
     exists b', mono_in (mono_out rnd (mbox ops) ++ rest) b2 = Ok (b', rest) /\
       mL b' = vmap rnd (mL (mbox ops)) /\ mD b' = rnd (mD (mbox ops)) /\
       ((forall x, rnd x = x) -> b' = mbox ops)) /\
  (forall feq rest, (forall x, feq x x = true) ->
     mono_load feq (mono_save (mbox ops) ++ rest) b2 = Ok (mbox ops, rest)) /\
  mono_recv (mono_send (mbox ops)) b2 = mbox ops.
Proof.
  intros ops b2 Ho (ops2 & Ho2 & ->).
  pose proof (mwf_box ops Ho) as W. pose proof (mwf_box ops2 Ho2) as W2.
  destruct (params ops) as [l d]. cbn [fst snd] in *.
  assert (R : forall l' d', positive3 l' -> mwf (mono_reset (mbox ops2) l' d') l' d').
  { intros. eapply mwf_reset; done. }
  assert (E : mono_reset (mbox ops2) l d = mbox ops).
  { eapply mwf_unique; [apply R, W|done]. }
  split; [|split].
  - intros rnd rest Hr. unfold mono_out. rewrite (m_lat _ _ _ W), (m_l _ _ _ W), (m_d _ _ _ W).
    eexists. split; [reflexivity|].
    assert (P' : positive3 (V3 (rnd (vx l)) (rnd (vy l)) (rnd (vz l)))).
    { destruct (m_pos _ _ _ W) as (?&?&?). unfold positive3; simpl; auto. }
    pose proof (R _ (rnd d) P') as W3. split; [apply W3|]. split; [apply W3|].
    intros Hid. rewrite !Hid. destruct l. exact E.
  - intros feq rest Hf. unfold mono_load, mono_save. simpl. rewrite (m_l _ _ _ W), (m_d _ _ _ W), E.
    destruct (mono_basis_dual ops Ho) as (_&_&_&_&_&_&V). by rewrite V.
  - unfold mono_recv, mono_send, setMonoclinic. simpl. by rewrite (m_l _ _ _ W), (m_d _ _ _ W).
Qed.

Example mono_example :
  let ops := [SetMonoOrtho (V3 1 1 1); SetMono (V3 2 3 5) 1] in
  Forall mono_op_ok ops /\ near_cell_of (mBrav (mbox ops)) (V3 (-1) 4 2).
Proof.
  intros ops. assert (H : Forall mono_op_ok ops).
  { repeat constructor; unfold positive3; simpl; lra. }
  split; [done|]. exists (V3 (-1/2) (4/3) (2/15)). split.
  - rewrite (m_brav _ _ _ (mwf_box _ H)). rewrite combo_mono. simpl. f_equal; lra.
  - intros [|[|[|]]]; simpl; intros; try lia; lra.
Qed.

Print Assumptions mono_transforms_inverse.
Print Assumptions mono_basis_dual.
Print Assumptions mono_shift_wraps.
Print Assumptions mono_distanceSq_image_partial.
Print Assumptions mono_min_image_refuted.
Print Assumptions mono_io_round_trip.
