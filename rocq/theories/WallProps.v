(** Property C38: wall potentials. *)
From Verif Require Import Base Vec3 BoxSpec GradSpec WallModel WallSpec Deriv DihedralProofs.
From Coq Require Import Reals Lra.
From Coquelicot Require Import Coquelicot.
Local Open Scope R_scope.

(** One-sided agreement determines the derivative. *)
Lemma derive_right_unique (f g : R -> R) x b l l' : x < b -> (forall y, x <= y < b -> f y = g y) ->
  is_derive f x l -> is_derive g x l' -> l = l'.
Proof.
  intros Hb Hfg Df Dg. apply is_derive_Reals in Df, Dg.
  destruct (Req_dec l l') as [|N]; [done|exfalso].
  set (eps := Rabs (l - l') / 2). assert (He : 0 < eps).
  { unfold eps. assert (0 < Rabs (l - l')) by (apply Rabs_pos_lt; lra). lra. }
  destruct (Df eps He) as [d1 H1]. destruct (Dg eps He) as [d2 H2].
  set (h := Rmin (Rmin d1 d2) (b - x) / 2).
  assert (M : 0 < Rmin (Rmin d1 d2) (b - x)). { repeat apply Rmin_pos; try lra; apply cond_pos. }
  assert (L1 : Rmin (Rmin d1 d2) (b - x) <= d1) by (eapply Rle_trans; [apply Rmin_l|apply Rmin_l]).
  assert (L2 : Rmin (Rmin d1 d2) (b - x) <= d2) by (eapply Rle_trans; [apply Rmin_l|apply Rmin_r]).
  assert (L3 : Rmin (Rmin d1 d2) (b - x) <= b - x) by apply Rmin_r.
  assert (Ph : 0 < h) by (unfold h; lra). assert (Ah : Rabs h = h) by (apply Rabs_right; lra).
  specialize (H1 h ltac:(lra) ltac:(rewrite Ah; unfold h; lra)).
  specialize (H2 h ltac:(lra) ltac:(rewrite Ah; unfold h; lra)).
  rewrite (Hfg x) in H1 by lra. rewrite (Hfg (x + h)) in H1 by (unfold h; lra).
  set (q := (g (x + h) - g x) / h) in *.
  assert (T : Rabs (l - l') <= Rabs (q - l') + Rabs (q - l)).
  { replace (l - l') with ((q - l') + - (q - l)) by ring. eapply Rle_trans; [apply Rabs_triang|]. rewrite Rabs_Ropp. lra. }
  unfold eps in *. lra.
Qed.
Lemma derive_left_unique (f g : R -> R) x a l l' : a < x -> (forall y, a < y <= x -> f y = g y) ->
  is_derive f x l -> is_derive g x l' -> l = l'.
Proof.
  intros Ha Hfg Df Dg.
  assert (E : forall k : R -> R, forall m, is_derive k x m -> is_derive (fun y => k (- y)) (- x) (- m)).
  { intros k m Dk. evar_last.
    - apply (is_derive_comp k (fun y => - y) (- x) m (-1)).
      + rewrite Ropp_involutive. exact Dk.
      + auto_derive; [done|ring].
    - unfold scal; simpl; unfold mult; simpl. ring. }
  assert (- l = - l'); [|lra].
  apply (derive_right_unique (fun y => f (- y)) (fun y => g (- y)) (- x) (- a)).
  - lra.
  - intros y Hy. apply Hfg. lra.
  - by apply E.
  - by apply E.
Qed.

(** The unclamped potential. *)
Definition wexpr (w : wall) (d : R) : R :=
  wCoeff w * (wCb w / (d * d * d) * (wCb w / (d * d * d) * (wCb w / (d * d * d)) - 75 / 10) + 7905694 / 1000000).
Definition wslope (w : wall) (d : R) : R :=
  wCoeff w * (9 * (wCb w / (d * d * d)) * (wCb w / (d * d * d)) - 225 / 10) * (wCb w / (d * d * d)) / d.
Lemma wexpr_derive w d : 0 < d -> is_derive (wexpr w) d (- wslope w d).
Proof.
  intros Hd. unfold wexpr, wslope. assert (d * d * d <> 0). { assert (0 < d * d) by nra. nra. }
  auto_derive; [repeat split; nra|]. field. lra.
Qed.
Lemma wall_energy_in w d : d < wCut w -> 129615 / 1000000 * wCb w <= d * d * d -> wall_energy w d = wexpr w d.
Proof. intros H1 H2. unfold wall_energy. destruct (Rlt_dec d (wCut w)); [|lra]. destruct (Rlt_dec _ _); [lra|]. done. Qed.
Lemma wall_force_in w d : d < wCut w -> 129615 / 1000000 * wCb w <= d * d * d -> wall_force w d = wslope w d.
Proof. intros H1 H2. unfold wall_force. destruct (Rlt_dec d (wCut w)); [|lra]. destruct (Rlt_dec _ _); [lra|]. done. Qed.
Lemma wall_out w d : wCut w <= d -> wall_energy w d = 0 /\ wall_force w d = 0.
Proof. intros H. unfold wall_energy, wall_force. destruct (Rlt_dec d (wCut w)); [lra|]. done. Qed.
Lemma cube_le a b : 0 <= a -> a <= b -> a * a * a <= b * b * b.
Proof. intros. assert (a * a <= b * b) by nra. nra. Qed.


Lemma axis_near_eq w L y : y <= L / 2 -> axis_energy w L y = wall_energy w y /\ axis_force w L y = wall_force w y.
Proof. intros Hy. unfold axis_energy, axis_force. destruct (Rgt_dec _ _); [lra|done]. Qed.
Lemma axis_far_eq w L y : L / 2 < y -> axis_energy w L y = wall_energy w (L - y) /\ axis_force w L y = - wall_force w (L - y).
Proof.
  intros Hy. unfold axis_energy, axis_force. destruct (Rgt_dec _ _); [|lra].
  replace (L * (1 / 2) + L * (1 / 2) - y) with (L - y) by lra. done.
Qed.
Lemma axis_sym w L y : axis_energy w L (L - y) = axis_energy w L y.
Proof.
  destruct (Rlt_dec (L / 2) y).
  - rewrite (proj1 (axis_far_eq w L y r)), (proj1 (axis_near_eq w L (L - y) ltac:(lra))). done.
  - destruct (Req_dec y (L / 2)) as [->|]; [f_equal; lra|].
    rewrite (proj1 (axis_near_eq w L y ltac:(lra))), (proj1 (axis_far_eq w L (L - y) ltac:(lra))). f_equal. lra.
Qed.
Lemma derive_sym (f : R -> R) L x l : (forall y, f (L - y) = f y) -> is_derive f x l -> is_derive f (L - x) (- l).
Proof.
  intros H D. apply (is_derive_ext (fun y => f (L - y))); [exact H|]. assert (E : L - (L - x) = x) by ring.
  eapply is_derive_eq.
  - apply (is_derive_comp f (fun y => L - y) (L - x) l (-1)).
    + cbv beta. rewrite E. exact D.
    + auto_derive; [exact I|ring].
  - unfold scal; simpl; unfold mult; simpl. ring.
Qed.

(** Near half of the box: the derivative, if there is one. *)
Lemma axis_near w L x l : 0 < x -> x <= L / 2 -> 129615 / 1000000 * wCb w < x * x * x ->
  is_derive (axis_energy w L) x l -> axis_force w L x = - l.
Proof.
  intros Hx HL Hc D. rewrite (proj2 (axis_near_eq w L x HL)).
  assert (Ea : forall y, y <= L / 2 -> axis_energy w L y = wall_energy w y) by (intros; by apply axis_near_eq).
  destruct (Rlt_dec x (wCut w)) as [Hcut|Hcut].
  - rewrite wall_force_in by lra.
    assert (Loc : locally x (fun y => 129615 / 1000000 * wCb w < y * y * y)).
    { apply (locally_gt (fun y => y * y * y)); [|done]. auto_derive. done. }
    destruct Loc as [e He]. pose proof (cond_pos e).
    assert (l = - wslope w x); [|lra].
    apply (derive_left_unique (axis_energy w L) (wexpr w) x (x - e)); [lra| |done|by apply wexpr_derive].
    intros y Hy. rewrite Ea by lra. apply wall_energy_in; [lra|].
    left. apply He. unfold ball; simpl. unfold AbsRing_ball, abs, minus, plus, opp; simpl.
    apply Rabs_def1; lra.
  - rewrite (proj2 (wall_out w x ltac:(lra))).
    assert (l = 0); [|lra].
    destruct (Rlt_dec x (L / 2)) as [Hlt|Hge].
    + apply (derive_right_unique (axis_energy w L) (fun _ => 0) x (L / 2)); [done| |done|apply (is_derive_const (V := R_NormedModule) 0)].
      intros y Hy. rewrite Ea by lra. apply wall_out. lra.
    + assert (Ex : L - x = x) by lra. pose proof (derive_sym _ L x l (axis_sym w L) D) as D'. rewrite Ex in D'.
      apply is_derive_unique in D, D'. lra.
Qed.
Lemma axis_all w L x l : 0 < x < L -> 129615 / 1000000 * wCb w < wall_dist L x * wall_dist L x * wall_dist L x ->
  is_derive (axis_energy w L) x l -> axis_force w L x = - l.
Proof.
  unfold wall_dist. intros Hx Hc D. destruct (Rle_dec x (L / 2)) as [Hn|Hf].
  - rewrite Rmin_left in Hc by lra. apply axis_near; try done. lra.
  - rewrite Rmin_right in Hc by lra. rewrite (proj2 (axis_far_eq w L x ltac:(lra))).
    pose proof (axis_near w L (L - x) (- l) ltac:(lra) ltac:(lra) Hc (derive_sym _ L x l (axis_sym w L) D)) as E.
    rewrite (proj2 (axis_near_eq w L (L - x) ltac:(lra))) in E. lra.
Qed.

(** Where nothing is switched there is a derivative. *)
Lemma axis_near_ex w L x : 0 < x -> x <= L / 2 -> 129615 / 1000000 * wCb w < x * x * x ->
  x <> wCut w -> (x <> L / 2 \/ wCut w < L / 2) -> is_derive (axis_energy w L) x (- axis_force w L x).
Proof.
  intros Hx HL Hc Hcut Hm. rewrite (proj2 (axis_near_eq w L x HL)).
  destruct (Rlt_dec x (wCut w)) as [Hin|Hout].
  - assert (x < L / 2) by lra. rewrite wall_force_in by lra.
    eapply is_derive_ext_loc; [|by apply wexpr_derive].
    assert (Loc : locally x (fun y => 129615 / 1000000 * wCb w < y * y * y /\ (y < wCut w /\ y < L / 2))).
    { apply filter_and; [|apply filter_and].
      - apply (locally_gt (fun y => y * y * y)); [|done]. auto_derive. done.
      - apply (locally_lt (fun y => y)); [|done]. auto_derive. done.
      - apply (locally_lt (fun y => y)); [|done]. auto_derive. done. }
    revert Loc. apply filter_imp. intros y (Y1 & Y2 & Y3). symmetry.
    rewrite (proj1 (axis_near_eq w L y ltac:(lra))). apply wall_energy_in; lra.
  - rewrite (proj2 (wall_out w x ltac:(lra))). 
    eapply is_derive_ext_loc; [|eapply is_derive_eq; [apply (is_derive_const (V := R_NormedModule) 0)|unfold zero; simpl; ring]].
    assert (Loc : locally x (fun y => wCut w < y /\ y < L - wCut w)).
    { apply filter_and.
      - apply (locally_gt (fun y => y)); [|lra]. auto_derive. done.
      - apply (locally_lt (fun y => y)); [|lra]. auto_derive. done. }
    revert Loc. apply filter_imp. intros y (Y1 & Y2). symmetry.
    destruct (Rle_dec y (L / 2)).
    + rewrite (proj1 (axis_near_eq w L y ltac:(lra))). apply wall_out. lra.
    + rewrite (proj1 (axis_far_eq w L y ltac:(lra))). apply wall_out. lra.
Qed.
Lemma axis_ex w L x : 0 < x < L -> 129615 / 1000000 * wCb w < wall_dist L x * wall_dist L x * wall_dist L x ->
  regular (wCut w) L x -> is_derive (axis_energy w L) x (- axis_force w L x).
Proof.
  unfold regular, wall_dist. intros Hx Hc [Hr Hm]. destruct (Rle_dec x (L / 2)) as [Hn|Hf].
  - rewrite Rmin_left in * by lra. apply axis_near_ex; try done. lra.
  - rewrite Rmin_right in * by lra.
    pose proof (axis_near_ex w L (L - x) ltac:(lra) ltac:(lra) Hc Hr ltac:(lra)) as D.
    apply (derive_sym _ L _ _ (axis_sym w L)) in D. replace (L - (L - x)) with x in D by ring.
    eapply is_derive_eq; [exact D|].
    rewrite (proj2 (axis_near_eq w L (L - x) ltac:(lra))), (proj2 (axis_far_eq w L x ltac:(lra))). lra.
Qed.

(** Sums of axis energies over a set of axes. *)
Definition sel (b : bool) (x : R) : R := if b then x else 0.
Definition sum_energy (bx by_ bz : bool) (w : wall) (L p : vec3 R) : R :=
  sel bx (axis_energy w (vx L) (vx p)) + sel by_ (axis_energy w (vy L) (vy p)) + sel bz (axis_energy w (vz L) (vz p)).
Definition sum_force (bx by_ bz : bool) (w : wall) (L p : vec3 R) : vec3 R :=
  V3 (sel bx (axis_force w (vx L) (vx p))) (sel by_ (axis_force w (vy L) (vy p))) (sel bz (axis_force w (vz L) (vz p))).

Lemma derive_shift (f : R -> R) x l : is_derive (fun t => f (x + t)) 0 l -> is_derive f x l.
Proof.
  intros D. apply (is_derive_ext (fun y => (fun t => f (x + t)) (y - x))); [intros y; apply f_equal; ring|].
  eapply is_derive_eq.
  - apply (is_derive_comp (fun t => f (x + t)) (fun y => y - x) x l 1).
    + cbv beta. assert (E : x - x = 0) by ring. rewrite E. exact D.
    + auto_derive; [done|ring].
  - unfold scal; simpl; unfold mult; simpl. ring.
Qed.
Lemma derive_line (f : R -> R) x e l : is_derive f x l -> is_derive (fun t => f (x + t * e)) 0 (l * e).
Proof.
  intros D. eapply is_derive_eq.
  - apply (is_derive_comp f (fun t => x + t * e) 0 l e).
    + cbv beta. assert (E : x + 0 * e = x) by ring. rewrite E. exact D.
    + auto_derive; [done|ring].
  - unfold scal; simpl; unfold mult; simpl. ring.
Qed.
Lemma derive_minus_const (f g : R -> R) c x l : (forall y, f y = g y + c) -> is_derive f x l -> is_derive g x l.
Proof.
  intros H D. apply (is_derive_ext (fun y => f y + - c)); [intros y; specialize (H y); change (f y + - c = g y :> R); lra|].
  eapply is_derive_eq; [apply (is_derive_plus (V := R_NormedModule)); [exact D|apply (is_derive_const (V := R_NormedModule))]|].
  unfold plus, zero; simpl. ring.
Qed.
Lemma sel_derive b f x l : is_derive (fun y => sel b (f y)) x l -> if b then is_derive f x l else l = 0.
Proof.
  destruct b; simpl; intros D; [exact D|].
  apply is_derive_unique in D. rewrite <- D. apply Derive_const.
Qed.

Lemma sum_gradient (bx by_ bz : bool) w L p :
  (bx = true -> 0 < vx p < vx L /\ 129615 / 1000000 * wCb w < wall_dist (vx L) (vx p) * wall_dist (vx L) (vx p) * wall_dist (vx L) (vx p)) ->
  (by_ = true -> 0 < vy p < vy L /\ 129615 / 1000000 * wCb w < wall_dist (vy L) (vy p) * wall_dist (vy L) (vy p) * wall_dist (vy L) (vy p)) ->
  (bz = true -> 0 < vz p < vz L /\ 129615 / 1000000 * wCb w < wall_dist (vz L) (vz p) * wall_dist (vz L) (vz p) * wall_dist (vz L) (vz p)) ->
  force_is_gradient (sum_energy bx by_ bz w L) (sum_force bx by_ bz w L) p.
Proof.
  intros HX HY HZ g G. destruct p as [px py pz], L as [Lx Ly Lz]; cbn [vx vy vz] in *.
  pose proof (G (V3 1 0 0)) as GX. pose proof (G (V3 0 1 0)) as GY. pose proof (G (V3 0 0 1)) as GZ. clear G.
  destruct g as [gx gy gz]. unfold sum_force, vopp, vscale; cbn [vx vy vz].
  assert (DX : is_derive (fun y => sel bx (axis_energy w Lx y)) px gx).
  { apply derive_shift. eapply (derive_minus_const _ _ (sel by_ (axis_energy w Ly py) + sel bz (axis_energy w Lz pz))).
    2:{ eapply is_derive_eq; [exact GX|]. unfold vdot; simpl. ring. }
    intros t. unfold sum_energy, move, vadd, vscale; cbn [vx vy vz].
    replace (px + t * 1) with (px + t) by ring. replace (py + t * 0) with py by ring. replace (pz + t * 0) with pz by ring. ring. }
  assert (DY : is_derive (fun y => sel by_ (axis_energy w Ly y)) py gy).
  { apply derive_shift. eapply (derive_minus_const _ _ (sel bx (axis_energy w Lx px) + sel bz (axis_energy w Lz pz))).
    2:{ eapply is_derive_eq; [exact GY|]. unfold vdot; simpl. ring. }
    intros t. unfold sum_energy, move, vadd, vscale; cbn [vx vy vz].
    replace (px + t * 0) with px by ring. replace (py + t * 1) with (py + t) by ring. replace (pz + t * 0) with pz by ring. ring. }
  assert (DZ : is_derive (fun y => sel bz (axis_energy w Lz y)) pz gz).
  { apply derive_shift. eapply (derive_minus_const _ _ (sel bx (axis_energy w Lx px) + sel by_ (axis_energy w Ly py))).
    2:{ eapply is_derive_eq; [exact GZ|]. unfold vdot; simpl. ring. }
    intros t. unfold sum_energy, move, vadd, vscale; cbn [vx vy vz].
    replace (px + t * 0) with px by ring. replace (py + t * 0) with py by ring. replace (pz + t * 1) with (pz + t) by ring. ring. }
  apply sel_derive in DX, DY, DZ. f_equal.
  - destruct bx; simpl; [|lra]. destruct (HX eq_refl). rewrite (axis_all w Lx px gx); [lra|done..].
  - destruct by_; simpl; [|lra]. destruct (HY eq_refl). rewrite (axis_all w Ly py gy); [lra|done..].
  - destruct bz; simpl; [|lra]. destruct (HZ eq_refl). rewrite (axis_all w Lz pz gz); [lra|done..].
Qed.

Lemma sum_differentiable (bx by_ bz : bool) w L p :
  (bx = true -> is_derive (axis_energy w (vx L)) (vx p) (- axis_force w (vx L) (vx p))) ->
  (by_ = true -> is_derive (axis_energy w (vy L)) (vy p) (- axis_force w (vy L) (vy p))) ->
  (bz = true -> is_derive (axis_energy w (vz L)) (vz p) (- axis_force w (vz L) (vz p))) ->
  is_grad (sum_energy bx by_ bz w L) p (vopp (sum_force bx by_ bz w L p)).
Proof.
  intros HX HY HZ e. 
  assert (S : forall b f x l e, (b = true -> is_derive f x (- l)) -> is_derive (fun t => sel b (f (x + t * e))) 0 (- sel b l * e)).
  { intros b f x l e0 H. destruct b; simpl; [by apply derive_line, H|].
    eapply is_derive_eq; [apply (is_derive_const (V := R_NormedModule))|]. unfold zero; simpl. ring. }
  unfold sum_energy, move, vadd, vscale; cbn [vx vy vz].
  eapply is_derive_eq.
  - apply (is_derive_plus (V := R_NormedModule)); [apply (is_derive_plus (V := R_NormedModule))|].
    + apply S, HX.
    + apply S, HY.
    + apply S, HZ.
  - unfold sum_force, vopp, vscale, vdot, plus; simpl. ring.
Qed.

Definition slit_consistent (w : wall) : Prop :=
  wCb w = wSig w * wSig w * wSig w /\ wCoeff w = 4 * wEps w * acos (-1) / 45 * (7 / 10) * wCb w.
Lemma slit_life_consistent eps sig cut ops w : slit_life eps sig cut ops = Ok w -> slit_consistent w.
Proof.
  unfold slit_life. intros H. eapply (run_inv _ slit_consistent); [| |exact H]; [|done].
  intros s [nm x] s' _. destruct nm; simpl; [intros [= <-]; done..|done].
Qed.
Lemma acos_m1 : acos (-1) = PI.
Proof. replace (-1) with (- (1)) by ring. rewrite acos_opp, acos_1. ring. Qed.

(** C38, SlitExternal: the reported parameters determine energy and force, whatever set() calls were made;
    outside the core the force is minus the gradient wherever there is one, and there is one wherever no
    branch of the code switches. *)
Theorem slit_force_is_gradient_partial :
  forall eps0 sig0 cut0 ops w eps sig cut L p,
  slit_life eps0 sig0 cut0 ops = Ok w ->
  wall_get w WEps = Ok eps -> wall_get w WSig = Ok sig -> wall_get w WCut = Ok cut ->
  in_box sig (vz L) (vz p) ->
  slit_energy w L p = wall93 eps sig cut (wall_dist (vz L) (vz p)) /\
  force_is_gradient (slit_energy w L) (slit_getForce w L) p /\
  (regular cut (vz L) (vz p) -> is_grad (slit_energy w L) p (vopp (slit_getForce w L p))).
Proof.
  intros eps0 sig0 cut0 ops w eps sig cut L p HL [= <-] [= <-] [= <-] [Hb Hc].
  apply slit_life_consistent in HL as [Ecb Eco]. unfold outside_core in Hc. rewrite <- Ecb in Hc.
  assert (E1 : forall q, sum_energy false false true w L q = slit_energy w L q).
  { intros q. unfold sum_energy, slit_energy, sel. ring. }
  split; [|split].
  - unfold slit_energy, wall93. rewrite <- acos_m1.
    assert (EE : axis_energy w (vz L) (vz p) = wall_energy w (wall_dist (vz L) (vz p))).
    { unfold wall_dist. destruct (Rle_dec (vz p) (vz L / 2)).
      - rewrite Rmin_left by lra. apply axis_near_eq. lra.
      - rewrite Rmin_right by lra. apply axis_far_eq. lra. }
    rewrite EE. assert (Pd : 0 < wall_dist (vz L) (vz p)). { unfold wall_dist. apply Rmin_pos; lra. }
    set (d := wall_dist (vz L) (vz p)) in *. destruct (Rlt_dec d (wCut w)).
    + rewrite wall_energy_in by lra. unfold wexpr. rewrite Eco, Ecb. field. lra.
    + apply wall_out. lra.
  - intros g G. assert (G' : is_grad (sum_energy false false true w L) p g).
    { intros e. eapply is_derive_ext; [|apply G]. intros t. simpl. by rewrite E1. }
    apply (sum_gradient false false true w L p) in G'; [|done..|by intros _]. rewrite <- G'. reflexivity.
  - intros Hr e. eapply is_derive_ext; [intros t; apply E1|].
    replace (slit_getForce w L p) with (sum_force false false true w L p) by reflexivity.
    apply sum_differentiable; [done..|]. intros _. by apply axis_ex.
Qed.

(** C38, BoxExternal and OrthoBoxExternal (k is indConfine_; BoxExternal is the case k = 0), as read from file. *)
Theorem ortho_force_is_gradient_partial :
  forall k eps sig cut L p, let w := wall_read eps sig cut in
  ((k <= 0)%nat -> in_box sig (vx L) (vx p)) -> ((k <= 1)%nat -> in_box sig (vy L) (vy p)) ->
  ((k <= 2)%nat -> in_box sig (vz L) (vz p)) ->
  force_is_gradient (ortho_energy k w L) (ortho_getForce k w L) p /\
  (((k <= 0)%nat -> regular cut (vx L) (vx p)) -> ((k <= 1)%nat -> regular cut (vy L) (vy p)) ->
   ((k <= 2)%nat -> regular cut (vz L) (vz p)) -> is_grad (ortho_energy k w L) p (vopp (ortho_getForce k w L p))).
Proof.
  intros k eps sig cut L p w HX HY HZ.
  assert (E1 : forall q, sum_energy (k <=? 0)%nat (k <=? 1)%nat (k <=? 2)%nat w L q = ortho_energy k w L q).
  { intros q. unfold sum_energy, ortho_energy, sel. repeat case_match; ring. }
  assert (E2 : forall q, sum_force (k <=? 0)%nat (k <=? 1)%nat (k <=? 2)%nat w L q = ortho_getForce k w L q) by done.
  split.
  - intros g G. rewrite <- E2. apply sum_gradient.
    + intros H%Nat.leb_le. apply (HX H).
    + intros H%Nat.leb_le. apply (HY H).
    + intros H%Nat.leb_le. apply (HZ H).
    + intros e. eapply is_derive_ext; [|apply G]. intros t. simpl. by rewrite E1.
  - intros RX RY RZ e. eapply is_derive_ext; [intros t; apply E1|]. rewrite <- E2.
    apply sum_differentiable.
    + intros H%Nat.leb_le. apply axis_ex; [apply (HX H)|apply (HX H)|exact (RX H)].
    + intros H%Nat.leb_le. apply axis_ex; [apply (HY H)|apply (HY H)|exact (RY H)].
    + intros H%Nat.leb_le. apply axis_ex; [apply (HZ H)|apply (HZ H)|exact (RZ H)].
Qed.
Theorem box_force_is_gradient_partial :
  forall eps sig cut L p, let w := wall_read eps sig cut in
  in_box sig (vx L) (vx p) -> in_box sig (vy L) (vy p) -> in_box sig (vz L) (vz p) ->
  force_is_gradient (box_energy w L) (box_getForce w L) p /\
  (regular cut (vx L) (vx p) -> regular cut (vy L) (vy p) -> regular cut (vz L) (vz p) ->
   is_grad (box_energy w L) p (vopp (box_getForce w L p))).
Proof.
  intros eps sig cut L p w HX HY HZ.
  destruct (ortho_force_is_gradient_partial 0 eps sig cut L p (fun _ => HX) (fun _ => HY) (fun _ => HZ)) as [A B].
  split; [exact A|]. intros RX RY RZ. exact (B (fun _ => RX) (fun _ => RY) (fun _ => RZ)).
Qed.

(** What is missing: inside the core the energy is constant but the force is not zero. *)
Theorem wall_core_force_refuted :
  let w := wall_read 1 1 2 in let L := V3 10 10 10 in let p := V3 5 5 (1 / 4) in
  is_grad (slit_energy w L) p vzero /\ slit_getForce w L p <> vopp vzero.
Proof.
  intros w L p.
  assert (P : 0 < wCoeff w). { unfold w, wall_read; cbn [wCoeff]. rewrite acos_m1. pose proof PI_RGT_0. lra. }
  split.
  - intros e.
    eapply is_derive_ext_loc; [|eapply is_derive_eq; [apply (is_derive_const (V := R_NormedModule) (slit_energy w L p))|]].
    2:{ unfold vdot, vzero, zero; simpl. ring. }
    assert (Loc : locally 0 (fun t => 0 < 1 / 4 + t * vz e /\ 1 / 4 + t * vz e < 1 / 2)).
    { apply filter_and.
      - apply (locally_gt (fun t => 1 / 4 + t * vz e)); [|lra]. auto_derive. done.
      - apply (locally_lt (fun t => 1 / 4 + t * vz e)); [|lra]. auto_derive. done. }
    assert (C : forall y, 0 < y -> y < 1 / 2 -> y * y * y < 129615 / 1000000 * (1 * 1 * 1)).
    { intros y H1 H2. assert (y * y < 1 / 4) by nra. nra. }
    revert Loc. apply filter_imp. intros t [H1 H2].
    unfold slit_energy, axis_energy, p, L, move, vadd, vscale; cbn [vx vy vz].
    destruct (Rgt_dec _ _); [lra|]. destruct (Rgt_dec _ _); [lra|].
    unfold wall_energy. change (wCut w) with 2. change (wCb w) with (1 * 1 * 1).
    destruct (Rlt_dec _ _); [|lra]. destruct (Rlt_dec _ _); [|lra]. 
    pose proof (C (1 / 4 + t * vz e) H1 H2).
    destruct (Rlt_dec _ _); [|lra]. destruct (Rlt_dec _ _); [|lra]. done.
  - unfold slit_getForce, axis_force, p, L; cbn [vx vy vz].
    destruct (Rgt_dec _ _); [lra|]. unfold wall_force. change (wCut w) with 2. change (wCb w) with (1 * 1 * 1).
    destruct (Rlt_dec _ _); [|lra]. destruct (Rlt_dec _ _); [|lra].
    intros E. apply (f_equal vz) in E. cbn [vz vopp vzero vscale] in E.
    match type of E with ?l = _ => assert (0 < l); [|lra] end.
    apply Rdiv_lt_0_compat; [|lra]. apply Rmult_lt_0_compat; [|lra]. apply Rmult_lt_0_compat; [done|]. lra.
Qed.

(** BoxExternal::set and OrthoBoxExternal::set do not update the prefactor: the energy is that of the old epsilon. *)
Theorem box_set_refuted :
  exists w, box_life 1 1 2 ((WEps, 5) :: nil) = Ok w /\ wall_get w WEps = Ok 5 /\ wall_get w WSig = Ok 1 /\ wall_get w WCut = Ok 2 /\
  wall_energy w 1 <> wall93 5 1 2 1.
Proof.
  eexists. split; [reflexivity|]. repeat split.
  unfold wall_energy, wall93. cbn [wCut wCb wCoeff wall_read].
  destruct (Rlt_dec _ _); [|lra]. destruct (Rlt_dec _ _); [lra|]. rewrite acos_m1.
  pose proof PI_RGT_0. intros E. simpl in E. lra.
Qed.
(** setExternalParameter of all three classes changes the reported epsilon, not the energy. *)
Theorem wall_setExternal_refuted : forall eps sig cut x d,
  let w := wall_setExternal (wall_read eps sig cut) x in
  wall_get w WEps = Ok x /\ wall_energy w d = wall_energy (wall_read eps sig cut) d /\
  wall_force w d = wall_force (wall_read eps sig cut) d.
Proof. done. Qed.

Example slit_life_ex : exists w, slit_life 1 1 2 ((WEps, 5) :: (WCut, 3) :: nil) = Ok w /\ in_box 1 10 (6 / 10) /\ regular 3 10 (6 / 10).
Proof.
  eexists. split; [reflexivity|]. unfold in_box, outside_core, regular, wall_dist. rewrite Rmin_left by lra. lra.
Qed.

Print Assumptions slit_force_is_gradient_partial.
Print Assumptions ortho_force_is_gradient_partial.
Print Assumptions box_set_refuted.
