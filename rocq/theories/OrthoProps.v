(** Properties C01, C03, and the orthorhombic parts of C04 and C06. *)
From Verif Require Import Base Vec3 OrthoModel BoxSpec OrthoSpec OrthoProofs.
From Coq Require Import Reals Lra.
Local Open Scope R_scope.

(** C01.  In every box a client can set up, shift brings any position within one box
    length of the primary cell into the primary cell; the counter changes by the
    number of box lengths removed, so applyShift undoes it; the overload without
    counter gives the same position; wrapping again changes nothing. *)
Theorem ortho_shift_wraps :
  forall b r s r' s', a_box b ->
  (forall i, (i < 3)%nat -> - vget (oLen b) i <= vget r i < 2 * vget (oLen b) i) ->
  shift b r s = (r', s') ->
  in_box b r' /\
  (forall i, (i < 3)%nat -> vget r i = vget r' i + IZR (vget s' i - vget s i) * vget (oLen b) i) /\
  applyShifts b r' (V3 (vx s' - vx s) (vy s' - vy s) (vz s' - vz s))%Z = r /\
  shift1 b r = r' /\ shift b r' s' = (r', s').
Proof.
  intros b r s r' s' Hb Hr Hs. destruct (owf_a_box b Hb) as (l & lat & W).
  assert (A : forall i, (i < 3)%nat ->
    0 <= vget r' i < vget l i /\ vget r i = vget r' i + IZR (vget s' i - vget s i) * vget l i /\
    shift1_axis 0 (vget l i) (vget l i) (vget r i) = vget r' i /\
    shift_axis 0 (vget l i) (vget l i) (vget r' i) (vget s' i) = (vget r' i, vget s' i)).
  { intros i Hi. pose proof (vget_shift b r s i Hi) as E. rewrite Hs in E. simpl in E.
    specialize (Hr i Hi). rewrite (w_min _ _ _ W), (w_max _ _ _ W), (w_len _ _ _ W) in *.
    rewrite vget_zero in E. eapply shift_axis_spec; [apply pos3_get, W|done|done]. }
  rewrite (w_len _ _ _ W) in *.
  split; [|split; [|split; [|split]]].
  - intros i Hi. rewrite (w_len _ _ _ W). by apply A.
  - intros i Hi. by apply A.
  - unfold applyShifts, applyShift. rewrite (w_len _ _ _ W).
    destruct (A 0%nat ltac:(lia)) as (_ & E0 & _). destruct (A 1%nat ltac:(lia)) as (_ & E1 & _).
    destruct (A 2%nat ltac:(lia)) as (_ & E2 & _).
    rewrite (vec3_get_eq r), E0, E1, E2. by destruct r', s, s', l.
  - apply vec3_ext. intros i Hi. rewrite vget_shift1 by done.
    rewrite (w_min _ _ _ W), (w_max _ _ _ W), (w_len _ _ _ W), vget_zero. by apply A.
  - assert (E : forall i, (i < 3)%nat ->
      (vget (shift b r' s').1 i, vget (shift b r' s').2 i) = (vget r' i, vget s' i)).
    { intros i Hi. rewrite vget_shift by done.
      rewrite (w_min _ _ _ W), (w_max _ _ _ W), (w_len _ _ _ W), vget_zero. by apply A. }
    destruct (shift b r' s') as [u t]. simpl in E. f_equal; apply vec3_ext; intros i Hi;
      specialize (E i Hi); congruence.
Qed.

(** C01, generalized coordinates. *)
Theorem ortho_shiftGen_wraps :
  forall r s r' s', (forall i, (i < 3)%nat -> -1 <= vget r i < 2) ->
  shiftGen r s = (r', s') ->
  (forall i, (i < 3)%nat -> 0 <= vget r' i < 1 /\
      vget r i = vget r' i + IZR (vget s' i - vget s i)) /\
  shiftGen1 r = r' /\ shiftGen r' s' = (r', s').
Proof.
  intros r s r' s' Hr Hs.
  assert (A : forall i, (i < 3)%nat ->
    0 <= vget r' i < 1 /\ vget r i = vget r' i + IZR (vget s' i - vget s i) * 1 /\
    shift1_axis 0 1 1 (vget r i) = vget r' i /\
    shift_axis 0 1 1 (vget r' i) (vget s' i) = (vget r' i, vget s' i)).
  { intros i Hi. pose proof (vget_shiftGen r s i Hi) as E. rewrite Hs in E. simpl in E.
    specialize (Hr i Hi). eapply shift_axis_spec; [lra|lra|done]. }
  split; [|split].
  - intros i Hi. destruct (A i Hi) as (? & E & _). split; [done|]. lra.
  - apply vec3_ext. intros i Hi. destruct (A i Hi) as (_ & _ & E & _). rewrite <- E.
    destruct i as [|[|[|]]]; try lia; done.
  - assert (E : forall i, (i < 3)%nat ->
      (vget (shiftGen r' s').1 i, vget (shiftGen r' s').2 i) = (vget r' i, vget s' i)).
    { intros i Hi. rewrite vget_shiftGen by done. by apply A. }
    destruct (shiftGen r' s') as [u t]. simpl in E. f_equal; apply vec3_ext; intros i Hi;
      specialize (E i Hi); congruence.
Qed.

Lemma example_box : a_box (box [SetTetra 3 4; SetOrtho (V3 2 3 5)]) /\
  oLen (box [SetTetra 3 4; SetOrtho (V3 2 3 5)]) = V3 2 3 5.
Proof.
  split.
  - eexists. split; [|reflexivity]. repeat constructor; unfold positive3; simpl; lra.
  - assert (H : Forall box_op_ok [SetTetra 3 4; SetOrtho (V3 2 3 5)])
      by (repeat constructor; unfold positive3; simpl; lra).
    apply (w_len _ _ _ (owf_box _ H)).
Qed.

Example ortho_shift_example :
  let b := box [SetTetra 3 4; SetOrtho (V3 2 3 5)] in
  shift b (V3 2 (-1) 4) (V3 7 0 0)%Z = (V3 0 2 4, (V3 8 (-1) 0)%Z).
Proof.
  assert (H : Forall box_op_ok [SetTetra 3 4; SetOrtho (V3 2 3 5)])
      by (repeat constructor; unfold positive3; simpl; lra).
  pose proof (owf_box _ H) as W. unfold shift. rewrite (w_min _ _ _ W), (w_max _ _ _ W), (w_len _ _ _ W).
  unfold shift_axis, edges; simpl.
  destruct (Rge_dec 2 2), (Rge_dec (-1) 3), (Rlt_dec (-1) 0), (Rge_dec 4 5), (Rlt_dec 4 0);
    simpl; try lra. f_equal; f_equal; lra.
Qed.

(** C03.  For any two positions of the primary cell (or, more generally, less than
    one and a half box lengths apart along each axis) the three overloads agree; the
    value is the squared length of r1 - r2 plus the reported lattice translation, it
    is at most the squared distance between any pair of images, exchanging the
    arguments leaves it unchanged and reverses the separation. *)
Theorem ortho_distanceSq_min_image :
  forall b r1 r2, a_box b ->
  (forall i, (i < 3)%nat -> Rabs (vget r1 i - vget r2 i) <= 3/2 * vget (oLen b) i) ->
  let (d, t) := distanceSq_shift b r1 r2 in
  let (d', dr) := distanceSq_dr b r1 r2 in
  d = distanceSq b r1 r2 /\ d' = d /\
  dr = vadd (vsub r1 r2) (lattice_vector (oBrav b) t) /\
  d = normSq dr /\
  (forall n : vec3 Z, d <= normSq (vadd (vsub r1 r2) (lattice_vector (oBrav b) n))) /\
  distanceSq b r2 r1 = d /\
  (distanceSq_dr b r2 r1).2 = vscale (-1) dr /\
  isMinImageCart b dr = true.
Proof.
  intros b r1 r2 Hb Hr. destruct (owf_a_box b Hb) as (l & lat & W).
  unfold distanceSq_shift, distanceSq_dr, distanceSq.
  rewrite (w_len _ _ _ W) in Hr. rewrite (w_brav _ _ _ W).
  rewrite !(sep_eq b l lat _ _ _ W) by lia.
  assert (A : forall i, (i < 3)%nat ->
     exists d n, sep_axis (vget l i / 2) (vget l i) (vget r1 i) (vget r2 i) = (d, n) /\
      (sep_axis (vget l i / 2) (vget l i) (vget r2 i) (vget r1 i)).1 = - d /\
      d = vget r1 i - vget r2 i + IZR n * vget l i /\ Rabs d <= vget l i / 2 /\
      (forall k : Z, d * d <= (vget r1 i - vget r2 i + IZR k * vget l i) *
                              (vget r1 i - vget r2 i + IZR k * vget l i))).
  { intros i Hi. destruct (sep_axis _ _ (vget r1 i) _) as [d n] eqn:E. exists d, n.
    split; [done|]. pose proof (pos3_get l i (w_pos _ _ _ W)) as HL. split.
    - destruct (sep_axis_sym (vget l i) (vget r1 i) (vget r2 i) HL) as [H _]. by rewrite H, E.
    - apply sep_axis_spec; auto. }
  destruct (A 0%nat ltac:(lia)) as (d0 & n0 & -> & Q0 & S0 & B0 & M0).
  destruct (A 1%nat ltac:(lia)) as (d1 & n1 & -> & Q1 & S1 & B1 & M1).
  destruct (A 2%nat ltac:(lia)) as (d2 & n2 & -> & Q2 & S2 & B2 & M2).
  rewrite Q0, Q1, Q2. cbn [fst snd].
  assert (G : forall n i, (i < 3)%nat ->
     vget (vadd (vsub r1 r2) (lattice_vector (diag (vget l)) n)) i =
     vget r1 i - vget r2 i + IZR (vget n i) * vget l i).
  { intros n i Hi. rewrite <- lattice_diag by done. destruct r1, r2.
    destruct i as [|[|[|]]]; try lia; done. }
  split; [done|]. split; [lra|]. split; [|split; [|split; [|split; [|split]]]].
  - apply vec3_ext. intros i Hi. rewrite G by done.
    destruct i as [|[|[|]]]; try lia; done.
  - rewrite normSq_get. simpl. lra.
  - intros n. rewrite normSq_get, !G by lia.
    specialize (M0 (vget n 0)). specialize (M1 (vget n 1)). specialize (M2 (vget n 2)). lra.
  - lra.
  - unfold vscale. simpl. f_equal; lra.
  - unfold isMinImageCart. rewrite (w_half _ _ _ W). cbn [vx vy vz vget] in *.
    destruct (Rgt_dec (Rabs d0) _); [lra|]. destruct (Rgt_dec (Rabs d1) _); [lra|].
    destruct (Rgt_dec (Rabs d2) _); [lra|]. done.
Qed.

(** Positions of the primary cell satisfy the hypothesis; 0.1 and 1.9 along an edge
    of length 2 are 0.2 apart. *)
Example ortho_distance_example :
  let b := box [SetTetra 3 4; SetOrtho (V3 2 3 5)] in
  (forall r1 r2, in_box b r1 -> in_box b r2 ->
     forall i, (i < 3)%nat -> Rabs (vget r1 i - vget r2 i) <= 3/2 * vget (oLen b) i) /\
  distanceSq b (V3 (1/10) 1 1) (V3 (19/10) 1 1) = 4/100.
Proof.
  destruct example_box as [Hb Hl].
  assert (H : Forall box_op_ok [SetTetra 3 4; SetOrtho (V3 2 3 5)])
      by (repeat constructor; unfold positive3; simpl; lra).
  pose proof (owf_box _ H) as W. split.
  - intros r1 r2 H1 H2 i Hi. specialize (H1 i Hi). specialize (H2 i Hi).
    apply Rabs_le. lra.
  - unfold distanceSq. rewrite !(sep_eq _ _ _ _ _ _ W) by lia. unfold sep_axis, edges; simpl.
    repeat match goal with |- context [Rabs ?x] => 
      first [rewrite (Rabs_right x) by lra | rewrite (Rabs_left x) by lra] end.
    repeat (destruct (Rgt_dec _ _)); simpl; lra.
Qed.

(** C04, orthorhombic: the transforms are mutual inverses; adding a lattice vector
    adds its integers to the generalized coordinates; the primary cell corresponds
    to [0,1)^3; transformGenToCart is the linear combination of the Bravais basis
    vectors. *)
Theorem ortho_transforms_inverse :
  forall b, a_box b ->
  (forall r, genToCart b (cartToGen b r) = r) /\
  (forall g, cartToGen b (genToCart b g) = g) /\
  (forall g, genToCart b g = combo (oBrav b) g) /\
  (forall r n, cartToGen b (vadd r (lattice_vector (oBrav b) n)) = vadd (cartToGen b r) (vmap IZR n)) /\
  (forall r, in_box b r <-> forall i, (i < 3)%nat -> 0 <= vget (cartToGen b r) i < 1).
Proof.
  intros b Hb. destruct (owf_a_box b Hb) as ([x y z] & lat & W).
  pose proof (w_pos _ _ _ W) as (Px & Py & Pz). simpl in Px, Py, Pz.
  unfold in_box, genToCart, cartToGen. rewrite (w_len _ _ _ W), (w_inv _ _ _ W), (w_brav _ _ _ W).
  unfold lattice_vector, combo, diag, vadd, vscale, vmap. cbn [vx vy vz vget].
  split; [|split; [|split; [|split]]].
  - intros [u v w]. simpl. f_equal; field; lra.
  - intros [u v w]. simpl. f_equal; field; lra.
  - intros [u v w]. simpl. f_equal; ring.
  - intros [u v w] [n0 n1 n2]. simpl. f_equal; field; lra.
  - intros [u v w].
    assert (E : forall a L, 0 < L -> (0 <= a < L <-> 0 <= a * / L < 1)).
    { intros a L HL. assert (HI : 0 < / L) by (by apply Rinv_0_lt_compat).
      assert (E1 : L * / L = 1) by (field; lra). split; intros [H1 H2]; split.
      - apply Rmult_le_pos; lra.
      - rewrite <- E1. apply Rmult_lt_compat_r; lra.
      - apply (Rmult_le_reg_r (/ L)); lra.
      - apply (Rmult_lt_reg_r (/ L)); lra. }
    split; intros H i Hi.
    + specialize (H i Hi). destruct i as [|[|[|]]]; simpl in *; [| | |lia].
      * exact (proj1 (E u x Px) H).
      * exact (proj1 (E v y Py) H).
      * exact (proj1 (E w z Pz) H).
    + specialize (H i Hi). destruct i as [|[|[|]]]; simpl in *; [| | |lia].
      * exact (proj2 (E u x Px) H).
      * exact (proj2 (E v y Py) H).
      * exact (proj2 (E w z Pz) H).
Qed.

(** C06, orthorhombic: after any set calls the bases are dual, the volume is the
    triple product, the lengths and minLength are those set, and isValid accepts
    (whatever tolerance feq uses). *)
Theorem ortho_basis_dual :
  forall ops, Forall box_op_ok ops ->
  let b := box ops in
  oLen b = edges ops /\ oLat b = system ops /\
  (forall i j, (i < 3)%nat -> (j < 3)%nat ->
     vdot (vget (oBrav b) i) (vget (oRecip b) j) = if Nat.eqb i j then 2 * PI else 0) /\
  oVol b = triple (oBrav b) /\ 0 < oVol b /\
  oMinLen b = Rmin (vx (edges ops)) (Rmin (vy (edges ops)) (vz (edges ops))) /\
  (forall feq, (forall x, feq x x = true) -> ortho_isValid feq b = true).
Proof.
  intros ops H b. pose proof (owf_box ops H) as W. fold b in W.
  set (l := edges ops) in *. clearbody l. destruct l as [x y z].
  pose proof (w_pos _ _ _ W) as (Px & Py & Pz). simpl in Px, Py, Pz.
  split; [apply W|]. split; [apply W|]. split; [|split; [|split; [|split]]].
  - intros i j Hi Hj. rewrite (w_brav _ _ _ W), (w_recip _ _ _ W). unfold diag, vdot.
    destruct i as [|[|[|]]], j as [|[|[|]]]; try lia; simpl; field; lra.
  - rewrite (w_vol _ _ _ W), (w_brav _ _ _ W). unfold triple, diag, vdot, cross. simpl. ring.
  - rewrite (w_vol _ _ _ W). simpl. apply Rmult_lt_0_compat; [|done]. by apply Rmult_lt_0_compat.
  - apply W.
  - intros feq Hfeq. unfold ortho_isValid, region_isValid, dot.
    rewrite (w_brav _ _ _ W), (w_recip _ _ _ W), (w_min _ _ _ W), (w_max _ _ _ W),
      (w_len _ _ _ W), (w_half _ _ _ W), (w_vol _ _ _ W), (w_inv _ _ _ W).
    unfold diag, vzero. cbn [vx vy vz vget forallb Nat.eqb].
    assert (F : forall u v, u = v -> feq u v = true) by (intros ? ? ->; apply Hfeq).
    destruct (Rle_dec x 0); [lra|]. destruct (Rle_dec y 0); [lra|]. destruct (Rle_dec z 0); [lra|].
    rewrite !F by (field; lra). done.
Qed.

Example ortho_basis_example :
  Forall box_op_ok [SetTetra 3 4; SetOrtho (V3 2 3 5); SetCub 2] /\
  edges [SetTetra 3 4; SetOrtho (V3 2 3 5); SetCub 2] = V3 2 2 2.
Proof. split; [|done]. repeat constructor; unfold positive3; simpl; lra. Qed.

Print Assumptions ortho_shift_wraps.
Print Assumptions ortho_shiftGen_wraps.
Print Assumptions ortho_distanceSq_min_image.
Print Assumptions ortho_transforms_inverse.
Print Assumptions ortho_basis_dual.
