From Verif Require Import Base Vec3 OrthoModel BoxSpec OrthoSpec.
From Coq Require Import Reals Lra.
Local Open Scope R_scope.

Definition diag (f : nat -> R) : vec3 (vec3 R) :=
  V3 (V3 (f 0%nat) 0 0) (V3 0 (f 1%nat) 0) (V3 0 0 (f 2%nat)).

Record owf (b : ortho) (l : vec3 R) (lat : lattice) : Prop := {
  w_pos : positive3 l;
  w_min : oMin b = vzero;
  w_max : oMax b = l;
  w_len : oLen b = l;
  w_half : oHalf b = V3 (vx l / 2) (vy l / 2) (vz l / 2);
  w_vol : oVol b = vx l * vy l * vz l;
  w_inv : oInv b = V3 (/ vx l) (/ vy l) (/ vz l);
  w_minlen : oMinLen b = Rmin (vx l) (Rmin (vy l) (vz l));
  w_brav : oBrav b = diag (vget l);
  w_recip : oRecip b = diag (fun i => 2 * PI / vget l i);
  w_lat : oLat b = lat
}.

Lemma min_length_spec l : min_length l = Rmin (vx l) (Rmin (vy l) (vz l)).
Proof.
  unfold min_length, Rmin.
  repeat (destruct (Rlt_dec _ _) || destruct (Rle_dec _ _)); lra.
Qed.

Lemma owf_init : owf ortho_init (V3 1 1 1) Orthorhombic.
Proof.
  split; unfold ortho_init, positive3, set_diag, diag, vzero; simpl; try lra; try done.
  - f_equal; field.
  - by rewrite min_length_spec.
Qed.

Lemma owf_reset b l lat l' lat' : owf b l lat -> positive3 l' ->
  owf (ortho_reset b l' lat') l' lat'.
Proof.
  intros W P. destruct W as [_ Wmin _ _ _ _ _ _ Wb Wr _].
  unfold ortho_reset. rewrite Wmin, Wb, Wr. destruct l' as [x y z].
  unfold vzero, vmap, set_diag, diag. cbn [vx vy vz vget vset].
  assert (E : V3 (x - 0) (y - 0) (z - 0) = V3 x y z) by (f_equal; lra).
  assert (E0 : x - 0 = x) by lra. assert (E1 : y - 0 = y) by lra. assert (E2 : z - 0 = z) by lra.
  rewrite E0, E1, E2.
  split; cbn [oMin oMax oLen oHalf oVol oInv oMinLen oBrav oRecip oLat vx vy vz]; try done.
  - f_equal; unfold Rdiv; ring.
  - f_equal; unfold Rdiv; ring.
  - by rewrite min_length_spec.
Qed.

Lemma owf_step b l lat o : owf b l lat -> box_op_ok o -> exists l' lat', owf (box_step b o) l' lat'.
Proof.
  intros W Ho. destruct o; simpl in *; do 2 eexists; eapply owf_reset; try done;
    unfold positive3; simpl; lra.
Qed.

Lemma box_snoc ops o : box (ops ++ [o]) = box_step (box ops) o.
Proof. unfold box. by rewrite fold_left_app. Qed.

Lemma owf_box ops : Forall box_op_ok ops -> owf (box ops) (edges ops) (system ops).
Proof.
  induction ops as [|o ops IH] using rev_ind; intros H; [apply owf_init|].
  apply Forall_app in H as [H1 H2]. inversion H2 as [|? ? Ho _]; subst.
  specialize (IH H1). rewrite box_snoc. unfold edges, system. rewrite last_snoc.
  destruct o; simpl in *; eapply owf_reset; try done; unfold positive3; simpl; lra.
Qed.

Lemma owf_a_box b : a_box b -> exists l lat, owf b l lat.
Proof. intros (ops & H & ->). eauto using owf_box. Qed.

Lemma pos3_get l i : positive3 l -> 0 < vget l i.
Proof. intros (?&?&?). destruct i as [|[|]]; done. Qed.

Lemma vget_shift b r s i : (i < 3)%nat ->
  (vget (shift b r s).1 i, vget (shift b r s).2 i) =
  shift_axis (vget (oMin b) i) (vget (oMax b) i) (vget (oLen b) i) (vget r i) (vget s i).
Proof. destruct i as [|[|[|]]]; intros; try lia; simpl; symmetry; apply surjective_pairing. Qed.

Lemma vget_shiftGen r s i : (i < 3)%nat ->
  (vget (shiftGen r s).1 i, vget (shiftGen r s).2 i) = shift_axis 0 1 1 (vget r i) (vget s i).
Proof. destruct i as [|[|[|]]]; intros; try lia; simpl; symmetry; apply surjective_pairing. Qed.

Lemma shift_axis_spec L r s r' s' : 0 < L -> - L <= r < 2 * L ->
  shift_axis 0 L L r s = (r', s') ->
  0 <= r' < L /\ r = r' + IZR (s' - s) * L /\ shift1_axis 0 L L r = r' /\
  shift_axis 0 L L r' s' = (r', s').
Proof.
  intros HL Hr. unfold shift_axis, shift1_axis.
  destruct (Rge_dec r L) as [H1|H1]; [|destruct (Rlt_dec r 0) as [H2|H2]]; intros [= <- <-].
  - replace (s + 1 - s)%Z with 1%Z by lia.
    destruct (Rge_dec (r - L) L); [lra|]. destruct (Rlt_dec (r - L) 0); [lra|]. repeat split; lra.
  - replace (s - 1 - s)%Z with (-1)%Z by lia.
    destruct (Rge_dec (r + L) L); [lra|]. destruct (Rlt_dec (r + L) 0); [lra|]. repeat split; lra.
  - replace (s - s)%Z with 0%Z by lia.
    destruct (Rge_dec r L); [lra|]. destruct (Rlt_dec r 0); [lra|]. repeat split; lra.
Qed.

Lemma vec3_get_eq {A} (v : vec3 A) : v = V3 (vget v 0) (vget v 1) (vget v 2).
Proof. by destruct v. Qed.

Lemma vget_shift1 b r i : (i < 3)%nat -> vget (shift1 b r) i =
  shift1_axis (vget (oMin b) i) (vget (oMax b) i) (vget (oLen b) i) (vget r i).
Proof. destruct i as [|[|[|]]]; intros; try lia; done. Qed.

Lemma vget_zero i : vget vzero i = 0.
Proof. by destruct i as [|[|]]. Qed.

(** separations *)
Lemma sep_axis_spec L x1 x2 d n : 0 < L -> Rabs (x1 - x2) <= 3/2 * L ->
  sep_axis (L / 2) L x1 x2 = (d, n) ->
  d = x1 - x2 + IZR n * L /\ Rabs d <= L / 2 /\
  (forall k : Z, d * d <= (x1 - x2 + IZR k * L) * (x1 - x2 + IZR k * L)).
Proof.
  intros HL Hd. unfold sep_axis.
  assert (H3 : - (3/2 * L) <= x1 - x2 <= 3/2 * L).
  { revert Hd. unfold Rabs. destruct (Rcase_abs (x1 - x2)); lra. }
  assert (Hmin : forall e, Rabs e <= L / 2 -> forall (k m : Z) , e = x1 - x2 + IZR m * L ->
     e * e <= (x1 - x2 + IZR k * L) * (x1 - x2 + IZR k * L)).
  { intros e He k m Em. replace (x1 - x2 + IZR k * L) with (e + IZR (k - m) * L)
      by (rewrite minus_IZR; lra).
    assert (Hb : - (L/2) <= e <= L/2) by (revert He; unfold Rabs; destruct (Rcase_abs e); lra).
    destruct (Z.eq_dec (k - m) 0) as [->|Hne]; [lra|].
    set (j := (k - m)%Z) in *.
    destruct (Z_lt_le_dec 0 j) as [Hp|Hp].
    - assert (1 <= IZR j) by (apply (IZR_le 1); lia).
      assert (IZR j * L >= L) by nra. nra.
    - assert (IZR j <= -1) by (apply (IZR_le _ (-1)); lia).
      assert (IZR j * L <= - L) by nra. nra. }
  destruct (Rgt_dec (Rabs (x1 - x2)) (L / 2)) as [H1|H1];
    [destruct (Rgt_dec (x1 - x2) 0) as [H2|H2]|]; intros [= <- <-].
  - assert (Rabs (x1 - x2 - L) <= L / 2).
    { rewrite Rabs_right in H1 by lra. unfold Rabs. destruct (Rcase_abs (x1-x2-L)); lra. }
    split; [lra|]. split; [done|]. intros k. apply (Hmin _ H k (-1)%Z). lra.
  - assert (Rabs (x1 - x2 + L) <= L / 2).
    { rewrite Rabs_left1 in H1 by lra. unfold Rabs. destruct (Rcase_abs (x1-x2+L)); lra. }
    split; [lra|]. split; [done|]. intros k. apply (Hmin _ H k 1%Z). lra.
  - split; [lra|]. split; [lra|]. intros k. apply (Hmin (x1 - x2) ltac:(lra) k 0%Z). lra.
Qed.

Lemma sep_axis_sym L x1 x2 : 0 < L ->
  (sep_axis (L/2) L x2 x1).1 = - (sep_axis (L/2) L x1 x2).1 /\
  (sep_axis (L/2) L x2 x1).2 = (- (sep_axis (L/2) L x1 x2).2)%Z.
Proof.
  intros HL. unfold sep_axis. replace (x2 - x1) with (- (x1 - x2)) by lra.
  rewrite Rabs_Ropp. destruct (Rgt_dec (Rabs (x1 - x2)) (L / 2)) as [H|H].
  - assert (x1 - x2 <> 0). { intros E. rewrite E, Rabs_R0 in H. lra. }
    destruct (Rgt_dec (- (x1 - x2)) 0), (Rgt_dec (x1 - x2) 0); simpl;
      first [exfalso; lra | split; [lra|lia]].
  - simpl. split; [lra|lia].
Qed.

Lemma sep_eq b l lat r1 r2 i : owf b l lat -> (i < 3)%nat ->
  sep b r1 r2 i = sep_axis (vget l i / 2) (vget l i) (vget r1 i) (vget r2 i).
Proof.
  intros W Hi. unfold sep. rewrite (w_half _ _ _ W), (w_len _ _ _ W).
  destruct i as [|[|[|]]]; try lia; done.
Qed.

Lemma lattice_diag l n i : (i < 3)%nat ->
  vget (lattice_vector (diag (vget l)) n) i = IZR (vget n i) * vget l i.
Proof.
  destruct l, n. destruct i as [|[|[|]]]; intros; try lia;
    unfold lattice_vector, combo, vadd, vscale, diag, vmap; simpl; ring.
Qed.

Lemma normSq_get u : normSq u = vget u 0 * vget u 0 + vget u 1 * vget u 1 + vget u 2 * vget u 2.
Proof. by destruct u. Qed.
