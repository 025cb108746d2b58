From Verif Require Import Base Vec3 OrthoModel BoxSpec OrthoProofs MonoModel MonoSpec.
From Coq Require Import Reals Lra.
Local Open Scope R_scope.

Record mwf (b : mono) (l : vec3 R) (d : R) : Prop := {
  m_pos : positive3 l;
  m_min : mMin b = vzero;
  m_max : mMax b = l;
  m_l : mL b = l;
  m_d : mD b = d;
  m_half : mHalf b = V3 (vx l / 2) (vy l / 2) (vz l / 2);
  m_inv : mInv b = V3 (/ vx l) (/ vy l) (/ vz l);
  m_vol : mVol b = vx l * vy l * vz l;
  m_c3 : mC3 b = - d / vy l;
  m_e : mE b = sqrt (vy l * vy l + d * d);
  m_lens : mLengths b = V3 (vx l) (vy l) (vz l / sqrt (1 + (- d / vy l) * (- d / vy l)));
  m_minlen : mMinLen b = min_length (mLengths b);
  m_brav : mBrav b = V3 (V3 (vx l) 0 0) (V3 0 (vy l) d) (V3 0 0 (vz l));
  m_recip : mRecip b = V3 (V3 (2 * PI / vx l) 0 0) (V3 0 (2 * PI / vy l) 0)
                          (V3 0 (- (2 * PI) * d / (vy l * vz l)) (2 * PI / vz l));
  m_lat : mLat b = Monoclinic
}.

Lemma mwf_init : mwf mono_init (V3 1 1 1) 0.
Proof.
  assert (S1 : sqrt (1 * 1 + 0 * 0) = 1) by (transitivity (sqrt 1); [f_equal; ring|apply sqrt_1]).
  assert (S2 : sqrt (1 + - 0 / 1 * (- 0 / 1)) = 1) by (transitivity (sqrt 1); [f_equal; field|apply sqrt_1]).
  split; unfold mono_init, positive3, set_diag, vzero; cbn [mMin mMax mL mD mHalf mInv mVol mC3 mE mLengths mMinLen mBrav mRecip mLat vx vy vz vset vget]; try lra; try done.
  - by rewrite Rinv_1.
  - rewrite S2. f_equal. field.
  - unfold min_length; simpl. destruct (Rlt_dec 1 1); simpl; destruct (Rlt_dec 1 1); lra.
  - repeat f_equal. field.
Qed.

Lemma mwf_reset b l d l' d' : mwf b l d -> positive3 l' -> mwf (mono_reset b l' d') l' d'.
Proof.
  intros W P. destruct W as [_ _ _ _ _ _ _ _ _ _ _ _ Wb Wr Wl].
  unfold mono_reset. rewrite Wb, Wr. destruct l' as [x y z].
  unfold vmap, set_diag. cbn [vx vy vz vget vset].
  split; cbn [mMin mMax mL mD mHalf mInv mVol mC3 mE mLengths mMinLen mBrav mRecip mLat vx vy vz]; try done.
  - f_equal; unfold Rdiv; ring.
  - f_equal; unfold Rdiv; ring.
Qed.

Lemma mbox_snoc ops o : mbox (ops ++ [o]) = mono_step (mbox ops) o.
Proof. unfold mbox. by rewrite fold_left_app. Qed.

Lemma mwf_box ops : Forall mono_op_ok ops -> mwf (mbox ops) (params ops).1 (params ops).2.
Proof.
  induction ops as [|o ops IH] using rev_ind; intros H; [apply mwf_init|].
  apply Forall_app in H as [H1 H2]. inversion H2 as [|? ? Ho _]; subst.
  specialize (IH H1). rewrite mbox_snoc. unfold params. rewrite last_snoc.
  destruct o; simpl in *; eapply mwf_reset; done.
Qed.

Lemma mwf_a_mbox b : a_mbox b -> exists l d, mwf b l d.
Proof. intros (ops & H & ->). eauto using mwf_box. Qed.

Lemma mwf_unique b b' l d : mwf b l d -> mwf b' l d -> b = b'.
Proof.
  intros [_ A1 A2 A3 A4 A5 A6 A7 A8 A9 A10 A11 A12 A13 A14]
         [_ B1 B2 B3 B4 B5 B6 B7 B8 B9 B10 B11 B12 B13 B14].
  destruct b, b'; simpl in *; subst; congruence.
Qed.

Lemma combo_mono l d g : combo (V3 (V3 (vx l) 0 0) (V3 0 (vy l) d) (V3 0 0 (vz l))) g =
  V3 (vx g * vx l) (vy g * vy l) (vz g * vz l + vy g * d).
Proof. unfold combo, vadd, vscale. simpl. f_equal; ring. Qed.

Lemma shift_axis_0 L r s : shift_axis 0 L L r s = 
  if Rge_dec r L then (r - L, (s + 1)%Z) else if Rlt_dec r 0 then (r + L, (s - 1)%Z) else (r, s).
Proof. done. Qed.

(** mono_shift in terms of the one-dimensional operations. *)
Lemma mono_shift_axes b l d r s : mwf b l d ->
  let X := shift_axis 0 (vx l) (vx l) (vx r) (vx s) in
  let Y := shift_axis 0 (vy l) (vy l) (vy r) (vy s) in
  let z := vz r - IZR (Y.2 - vy s) * d in
  let U := shift_axis 0 (vz l) (vz l) (z - d / vy l * Y.1) (vz s) in
  mono_shift b r s = (V3 X.1 Y.1 (z - IZR (U.2 - vz s) * vz l), V3 X.2 Y.2 U.2).
Proof.
  intros W. unfold mono_shift.
  rewrite (m_max _ _ _ W), (m_min _ _ _ W), (m_l _ _ _ W), (m_d _ _ _ W), (m_c3 _ _ _ W).
  unfold vzero, shift_axis. cbn [vx vy vz].
  assert (E : forall z y, z + - d / vy l * y = z - d / vy l * y) by (intros; unfold Rdiv; ring).
  assert (E1 : forall s : Z, IZR (s + 1 - s) = 1) by (intros; f_equal; lia).
  assert (E2 : forall s : Z, IZR (s - 1 - s) = -1) by (intros; f_equal; lia).
  assert (E3 : forall s : Z, IZR (s - s) = 0) by (intros; f_equal; lia).
  assert (K1 : vz r - 1 * d = vz r - d) by ring.
  assert (K2 : vz r - -1 * d = vz r + d) by ring.
  assert (K3 : vz r - 0 * d = vz r) by ring.
  destruct (Rge_dec (vx r) (vx l)), (Rlt_dec (vx r) 0);
  destruct (Rge_dec (vy r) (vy l)), (Rlt_dec (vy r) 0); cbn [fst snd];
  rewrite ?E1, ?E2, ?E3, ?K1, ?K2, ?K3, !E;
  repeat match goal with |- context [Rge_dec ?a ?b] => destruct (Rge_dec a b)
   | |- context [Rlt_dec ?a ?b] => destruct (Rlt_dec a b) end; cbn [fst snd];
  rewrite ?E1, ?E2, ?E3; f_equal; f_equal; ring.
Qed.

Lemma mono_shift1_eq b r s : mono_shift1 b r = (mono_shift b r s).1.
Proof.
  unfold mono_shift, mono_shift1.
  repeat match goal with |- context [Rge_dec ?a ?b] => destruct (Rge_dec a b)
   | |- context [Rlt_dec ?a ?b] => destruct (Rlt_dec a b) end; done.
Qed.

Lemma mono_sep_axes b l d r1 r2 : mwf b l d ->
  let X := sep_axis (vx l / 2) (vx l) (vx r1) (vx r2) in
  let Y := sep_axis (vy l / 2) (vy l) (vy r1) (vy r2) in
  let U := sep_axis (vz l / 2) (vz l) (vz r1 - d / vy l * vy r1) (vz r2 - d / vy l * vy r2) in
  mono_sep b r1 r2 =
    (V3 X.1 Y.1 (vz r1 - vz r2 + IZR Y.2 * d + IZR U.2 * vz l), V3 X.2 Y.2 U.2).
Proof.
  intros W. unfold mono_sep.
  rewrite (m_l _ _ _ W), (m_half _ _ _ W), (m_d _ _ _ W), (m_c3 _ _ _ W).
  unfold sep_axis. cbn [vx vy vz].
  replace (vz r1 - vz r2 + - d / vy l * (vy r1 - vy r2)) with
    (vz r1 - d / vy l * vy r1 - (vz r2 - d / vy l * vy r2)) by (unfold Rdiv; ring).
  repeat match goal with |- context [Rgt_dec ?a ?b] => destruct (Rgt_dec a b) end;
  cbn [fst snd]; f_equal; f_equal; ring.
Qed.
