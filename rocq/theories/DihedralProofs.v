From Verif Require Import Base Vec3 BoxSpec BondModel AngleModel DihedralModel GradSpec DihedralSpec AngleProofs Deriv.
From Coq Require Import Reals Lra.
From Coquelicot Require Import Coquelicot.
Local Open Scope R_scope.

(** A quadratic curve. *)
Definition quad (v w z : vec3 R) (t : R) : vec3 R := vadd v (vadd (vscale t w) (vscale (t * t) z)).
Lemma cross_move a b e f t :
  cross (move a e t) (move b f t) = quad (cross a b) (vadd (cross a f) (cross e b)) (cross e f) t.
Proof. unfold cross, move, quad, vadd, vscale; simpl. f_equal; ring. Qed.
Lemma quad_0 v w z : quad v w z 0 = v.
Proof. destruct v. unfold quad, vadd, vscale; simpl. f_equal; ring. Qed.
Lemma vdot_quad v1 w1 z1 v2 w2 z2 :
  is_derive (fun t => vdot (quad v1 w1 z1 t) (quad v2 w2 z2 t)) 0 (vdot v1 w2 + vdot w1 v2).
Proof. unfold vdot, quad, vadd, vscale; simpl. auto_derive; [done|ring]. Qed.

(** Derivative of the cosine along quadratic curves. *)
Lemma cosine_quad v1 w1 z1 v2 w2 z2 : 0 < normSq v1 -> 0 < normSq v2 ->
  let p := sqrt (normSq v1) in let q := sqrt (normSq v2) in
  let u1 := vdivs v1 p in let u2 := vdivs v2 q in let c := vdot u1 u2 in
  c = cosine v1 v2 /\
  is_derive (fun t => cosine (quad v1 w1 z1 t) (quad v2 w2 z2 t)) 0
    (vdot (vscale (1 / p) (vadd (vscale (- c) u1) u2)) w1 + vdot (vscale (1 / q) (vadd (vscale (- c) u2) u1)) w2).
Proof.
  intros P1 P2 p q u1 u2 c.
  assert (Pp : 0 < p) by by apply sqrt_lt_R0. assert (Pq : 0 < q) by by apply sqrt_lt_R0.
  assert (Ep : p * p = normSq v1) by (apply sqrt_def; lra). assert (Eq : q * q = normSq v2) by (apply sqrt_def; lra).
  assert (Es : sqrt (normSq v1 * normSq v2) = p * q) by (apply sqrt_mult; lra).
  assert (Ec : c = vdot v1 v2 / (p * q)).
  { unfold c, u1, u2, vdot, vdivs; simpl. field. lra. }
  split; [exact Ec|].
  pose proof (quot_derive _ _ _ _ _ _ (vdot_quad v1 w1 z1 v2 w2 z2) (vdot_quad v1 w1 z1 v1 w1 z1)
     (vdot_quad v2 w2 z2 v2 w2 z2)) as D. cbv beta in D. rewrite !quad_0 in D.
  specialize (D P1 P2). fold (normSq v1) in D. fold (normSq v2) in D. rewrite Es, <- Ep, <- Eq in D.
  eapply is_derive_ext; [|eapply is_derive_eq; [exact D|]].
  - intros t. unfold cosine. fold (normSq (quad v1 w1 z1 t)). fold (normSq (quad v2 w2 z2 t)).
    rewrite <- sqrt_mult by apply normSq_nonneg. done.
  - clear D. 
    assert (X1 : vdot (vscale (1 / p) (vadd (vscale (- c) u1) u2)) w1 = (vdot w1 v2 / q - c * (vdot v1 w1 / p)) / p).
    { unfold u1, u2, vdot, vdivs, vadd, vscale; simpl. field. lra. }
    assert (X2 : vdot (vscale (1 / q) (vadd (vscale (- c) u2) u1)) w2 = (vdot v1 w2 / p - c * (vdot v2 w2 / q)) / q).
    { unfold u1, u2, vdot, vdivs, vadd, vscale; simpl. field. lra. }
    rewrite X1, X2, Ec, (vdot_comm w1 v1), (vdot_comm w2 v2). field. lra.
Qed.

Lemma tor_eps_pos : 0 < tor_eps.
Proof. unfold tor_eps. apply Rdiv_lt_0_compat; [lra|]. apply pow_lt. lra. Qed.

Lemma tor_angle_ok b1 b2 b3 : well_defined b1 b2 b3 -> tor_angle b1 b2 b3 = Some (dihedral_cosine b1 b2 b3).
Proof.
  intros [H1 H2]. unfold tor_angle, tor_eps.
  destruct (Rlt_dec _ _); [lra|]. destruct (Rlt_dec _ _); [lra|]. done.
Qed.
Lemma tor_angle_deg b1 b2 b3 : degenerate b1 b2 b3 -> tor_angle b1 b2 b3 = None /\ tor_derivs b1 b2 b3 = None.
Proof.
  unfold tor_angle, tor_derivs, tor_eps. intros [H|H]; destruct (Rlt_dec _ _); try done; destruct (Rlt_dec _ _); done.
Qed.

Lemma locally_gt (f : R -> R) x a : ex_derive f x -> a < f x -> locally x (fun t => a < f t).
Proof.
  intros D H. apply (ex_derive_continuous (V := R_NormedModule)) in D. apply (D (fun y => a < y)).
  by apply open_gt.
Qed.
Lemma locally_lt (f : R -> R) x a : ex_derive f x -> f x < a -> locally x (fun t => f t < a).
Proof.
  intros D H. apply (ex_derive_continuous (V := R_NormedModule)) in D. apply (D (fun y => y < a)).
  by apply open_lt.
Qed.

(** TorsionForce::computeDerivatives. *)
Lemma tor_grad b1 b2 b3 : well_defined b1 b2 b3 ->
  exists d1 d2 d3, tor_derivs b1 b2 b3 = Some (dihedral_cosine b1 b2 b3, d1, d2, d3) /\
  is_grad3 dihedral_cosine b1 b2 b3 d1 d2 d3 /\
  vadd (cross b1 d1) (vadd (cross b2 d2) (cross b3 d3)) = vzero.
Proof.
  intros [H1 H2]. pose proof tor_eps_pos as Pe. unfold tor_eps in Pe.
  assert (P1 : 0 < normSq (cross b1 b2)) by lra. assert (P2 : 0 < normSq (cross b2 b3)) by lra.
  unfold tor_derivs, tor_eps.
  destruct (Rlt_dec _ _); [lra|]. destruct (Rlt_dec _ _); [lra|].
  set (v1 := cross b1 b2) in *. set (v2 := cross b2 b3) in *.
  assert (Pp : 0 < sqrt (normSq v1)) by by apply sqrt_lt_R0. assert (Pq : 0 < sqrt (normSq v2)) by by apply sqrt_lt_R0.
  set (c := vdot (vdivs v1 (sqrt (normSq v1))) (vdivs v2 (sqrt (normSq v2)))).
  assert (Ec : c = dihedral_cosine b1 b2 b3).
  { unfold c, dihedral_cosine, cosine. fold v1 v2. unfold vdot, vdivs; simpl. field. lra. }
  eexists _, _, _. split; [rewrite <- Ec; reflexivity|]. split.
  - intros e1 e2 e3.
    destruct (cosine_quad v1 (vadd (cross b1 e2) (cross e1 b2)) (cross e1 e2)
                v2 (vadd (cross b2 e3) (cross e2 b3)) (cross e2 e3) P1 P2) as [_ D].
    eapply is_derive_ext; [|eapply is_derive_eq; [exact D|]].
    + intros t. unfold dihedral_cosine. rewrite !cross_move. done.
    + fold c. generalize (vscale (1 / sqrt (normSq v1)) (vadd (vscale (- c) (vdivs v1 (sqrt (normSq v1)))) (vdivs v2 (sqrt (normSq v2))))).
      intros t1. generalize (vscale (1 / sqrt (normSq v2)) (vadd (vscale (- c) (vdivs v2 (sqrt (normSq v2)))) (vdivs v1 (sqrt (normSq v1))))).
      intros t2. unfold vdot, vadd, cross; simpl. ring.
  - set (p := sqrt (normSq v1)) in *. set (q := sqrt (normSq v2)) in *.
    set (t1 := vscale (1 / p) _). set (t2 := vscale (1 / q) _).
    assert (J : vadd (cross b1 (cross b2 t1)) (vadd (cross b2 (vadd (cross t1 b1) (cross b3 t2))) (cross b3 (cross t2 b2))) =
                vopp (vadd (cross t1 v1) (cross t2 v2))).
    { unfold v1, v2, vopp, vadd, cross, vscale; simpl. f_equal; ring. }
    rewrite J. clear J. unfold t1, t2. clearbody p q c v1 v2. unfold vopp, vadd, cross, vscale, vdivs, vzero; simpl.
    f_equal; field; lra.
Qed.

Lemma is_grad3_comp (g : R -> R) f b1 b2 b3 d1 d2 d3 g' :
  is_derive g (f b1 b2 b3) g' -> is_grad3 f b1 b2 b3 d1 d2 d3 ->
  is_grad3 (fun x y z => g (f x y z)) b1 b2 b3 (vscale g' d1) (vscale g' d2) (vscale g' d3).
Proof.
  intros Hg Hf e1 e2 e3. specialize (Hf e1 e2 e3).
  assert (M : forall b e, move b e 0 = b) by (intros [? ? ?] ?; unfold move, vadd, vscale; simpl; f_equal; ring).
  assert (Hg' : is_derive g (f (move b1 e1 0) (move b2 e2 0) (move b3 e3 0)) g') by by rewrite !M.
  pose proof (is_derive_comp g (fun t => f (move b1 e1 t) (move b2 e2 t) (move b3 e3 t)) 0 _ _ Hg' Hf) as D.
  eapply is_derive_eq; [exact D|]. unfold scal; simpl. unfold mult; simpl.
  unfold vdot, vscale; simpl. ring.
Qed.

(** Along any line, well-definedness and degeneracy persist for a while. *)
Lemma normSq_cross_line a b e f : ex_derive (fun t => normSq (cross (move a e t) (move b f t))) 0.
Proof.
  eexists. apply (is_derive_ext (fun t => vdot (quad (cross a b) (vadd (cross a f) (cross e b)) (cross e f) t)
     (quad (cross a b) (vadd (cross a f) (cross e b)) (cross e f) t))); [|apply vdot_quad].
  intros t. by rewrite cross_move.
Qed.
Lemma move_0 b e : move b e 0 = b.
Proof. destruct b. unfold move, vadd, vscale; simpl. f_equal; ring. Qed.
Lemma well_defined_line b1 b2 b3 e1 e2 e3 : well_defined b1 b2 b3 ->
  locally 0 (fun t => well_defined (move b1 e1 t) (move b2 e2 t) (move b3 e3 t)).
Proof.
  intros [H1 H2]. apply filter_and.
  - apply (locally_gt (fun t => normSq (cross (move b1 e1 t) (move b2 e2 t)))); [apply normSq_cross_line|by rewrite !move_0].
  - apply (locally_gt (fun t => normSq (cross (move b2 e2 t) (move b3 e3 t)))); [apply normSq_cross_line|by rewrite !move_0].
Qed.
Lemma degenerate_line b1 b2 b3 e1 e2 e3 : degenerate b1 b2 b3 ->
  locally 0 (fun t => degenerate (move b1 e1 t) (move b2 e2 t) (move b3 e3 t)).
Proof.
  intros [H|H].
  - assert (L : locally 0 (fun t => normSq (cross (move b1 e1 t) (move b2 e2 t)) < 1 / 10 ^ 10)).
    { apply (locally_lt (fun t => normSq (cross (move b1 e1 t) (move b2 e2 t)))); [apply normSq_cross_line|by rewrite !move_0]. }
    revert L. apply filter_imp. intros t Ht. by left.
  - assert (L : locally 0 (fun t => normSq (cross (move b2 e2 t) (move b3 e3 t)) < 1 / 10 ^ 10)).
    { apply (locally_lt (fun t => normSq (cross (move b2 e2 t) (move b3 e3 t)))); [apply normSq_cross_line|by rewrite !move_0]. }
    revert L. apply filter_imp. intros t Ht. by right.
Qed.

(** A potential g(cosPhi) that is 0 on degenerate configurations. *)
Lemma dihedral_grad (en : vec3 R -> vec3 R -> vec3 R -> R) (g : R -> R) b1 b2 b3 g' :
  (forall x y z, well_defined x y z -> en x y z = g (dihedral_cosine x y z)) ->
  is_derive g (dihedral_cosine b1 b2 b3) g' ->
  well_defined b1 b2 b3 ->
  exists d1 d2 d3, tor_derivs b1 b2 b3 = Some (dihedral_cosine b1 b2 b3, d1, d2, d3) /\
  is_grad3 en b1 b2 b3 (vscale g' d1) (vscale g' d2) (vscale g' d3) /\
  vadd (cross b1 (vscale g' d1)) (vadd (cross b2 (vscale g' d2)) (cross b3 (vscale g' d3))) = vzero.
Proof.
  intros He Hg W. destruct (tor_grad b1 b2 b3 W) as (d1 & d2 & d3 & E & G & T).
  exists d1, d2, d3. split; [exact E|]. split.
  - pose proof (is_grad3_comp g _ _ _ _ _ _ _ _ Hg G) as GG. intros e1 e2 e3.
    eapply is_derive_ext_loc; [|apply GG].
    generalize (well_defined_line b1 b2 b3 e1 e2 e3 W). apply filter_imp. intros t Ht. symmetry. by apply He.
  - assert (X : vadd (cross b1 (vscale g' d1)) (vadd (cross b2 (vscale g' d2)) (cross b3 (vscale g' d3))) =
       vscale g' (vadd (cross b1 d1) (vadd (cross b2 d2) (cross b3 d3)))).
    { unfold vadd, cross, vscale; simpl. f_equal; ring. }
    rewrite X, T. unfold vscale, vzero; simpl. f_equal; ring.
Qed.

Lemma dihedral_atoms en r0 r1 r2 r3 (f : vec3 (vec3 R)) :
  let b1 := vsub r1 r0 in let b2 := vsub r2 r1 in let b3 := vsub r3 r2 in
  is_grad3 en b1 b2 b3 (vx f) (vy f) (vz f) ->
  vadd (cross b1 (vx f)) (vadd (cross b2 (vy f)) (cross b3 (vz f))) = vzero ->
  dihedral_forces_ok en r0 r1 r2 r3 (dihedral_atom_forces f).
Proof.
  destruct f as [f1 f2 f3]. intros b1 b2 b3 G T. unfold dihedral_atom_forces, dihedral_forces_ok. cbn [vx vy vz] in *. split; [|split].
  - intros e0 e1 e2 e3. specialize (G (vsub e1 e0) (vsub e2 e1) (vsub e3 e2)).
    eapply is_derive_ext; [|eapply is_derive_eq; [exact G|]].
    + intros t. unfold b1, b2, b3. f_equal; unfold move, vadd, vsub, vscale; simpl; f_equal; ring.
    + unfold vopp, vdot, vadd, vsub, vscale; simpl. ring.
  - unfold vadd, vsub, vzero; simpl. f_equal; ring.
  - match goal with |- ?l = _ => assert (E : l = vopp (vadd (cross b1 f1) (vadd (cross b2 f2) (cross b3 f3)))) end.
    { unfold b1, b2, b3, vadd, cross, vopp, vscale, vsub; simpl. f_equal; ring. }
    rewrite E, T. unfold vopp, vscale, vzero; simpl. f_equal; ring.
Qed.

Lemma dihedral_grad_deg en b1 b2 b3 :
  (forall x y z, degenerate x y z -> en x y z = 0) -> degenerate b1 b2 b3 ->
  is_grad3 en b1 b2 b3 vzero vzero vzero.
Proof.
  intros He D e1 e2 e3. eapply is_derive_ext_loc; [|eapply is_derive_eq; [apply (is_derive_const (V := R_NormedModule) 0)|]].
  - generalize (degenerate_line b1 b2 b3 e1 e2 e3 D). apply filter_imp. intros t Ht. symmetry. by apply He.
  - unfold vdot, vzero, zero; simpl. ring.
Qed.
