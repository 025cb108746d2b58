From Verif Require Import Base Vec3 BoxSpec BondModel AngleModel GradSpec Deriv.
From Coq Require Import Reals Lra.
From Coquelicot Require Import Coquelicot.
Local Open Scope R_scope.

Lemma vdot_move a b e f t :
  vdot (move a e t) (move b f t) = vdot a b + t * (vdot a f + vdot e b) + t * t * vdot e f.
Proof. unfold vdot, move, vadd, vscale; simpl. ring. Qed.
Lemma normSq_move b e t : normSq (move b e t) = normSq b + t * (2 * vdot b e) + t * t * normSq e.
Proof. unfold normSq. rewrite vdot_move. unfold vdot. ring. Qed.
Lemma normSq_nonneg v : 0 <= normSq v.
Proof. unfold normSq, vdot. nra. Qed.
Lemma vdot_comm a b : vdot a b = vdot b a.
Proof. unfold vdot. ring. Qed.
Lemma vdot_cauchy a b : vdot a b * vdot a b <= normSq a * normSq b.
Proof.
  unfold normSq, vdot. destruct a as [a1 a2 a3], b as [b1 b2 b3]; simpl.
  pose proof (pow2_ge_0 (a1 * b2 - a2 * b1)). pose proof (pow2_ge_0 (a1 * b3 - a3 * b1)).
  pose proof (pow2_ge_0 (a2 * b3 - a3 * b2)). lra.
Qed.

Lemma quot_derive (N A B : R -> R) (n a b : R) :
  is_derive N 0 n -> is_derive A 0 a -> is_derive B 0 b -> 0 < A 0 -> 0 < B 0 ->
  is_derive (fun t => N t / sqrt (A t * B t)) 0
    (n / sqrt (A 0 * B 0) - N 0 * (a * B 0 + A 0 * b) / (2 * (A 0 * B 0) * sqrt (A 0 * B 0))).
Proof.
  intros HN HA HB PA PB. assert (PAB : 0 < A 0 * B 0) by nra.
  assert (Q : 0 < sqrt (A 0 * B 0)) by by apply sqrt_lt_R0.
  auto_derive.
  - split; [eexists; exact HN|]. split; [eexists; exact HA|]. split; [eexists; exact HB|].
    split; [exact PAB|]. split; [lra|done].
  - replace (Derive (fun x => N x) 0) with n by (symmetry; apply is_derive_unique; done).
    replace (Derive (fun x => A x) 0) with a by (symmetry; apply is_derive_unique; done).
    replace (Derive (fun x => B x) 0) with b by (symmetry; apply is_derive_unique; done).
    set (q := sqrt (A 0 * B 0)) in *. assert (Hq : q * q = A 0 * B 0) by (apply sqrt_def; lra).
    rewrite <- Hq. field. lra.
Qed.

(** The derivatives of cosTheta computed by BendForce are its gradient. *)
Lemma bend_grad b1 b2 : 0 < normSq b1 -> 0 < normSq b2 ->
  let '(c, d1, d2) := bend_derivs b1 b2 in
  c = vdot b1 b2 / sqrt (normSq b1 * normSq b2) /\ is_grad2 (fun x y => vdot x y / sqrt (normSq x * normSq y)) b1 b2 d1 d2.
Proof.
  intros P1 P2. unfold bend_derivs, vabs.
  set (p := sqrt (normSq b1)). set (q := sqrt (normSq b2)).
  assert (Pp : 0 < p) by by apply sqrt_lt_R0. assert (Pq : 0 < q) by by apply sqrt_lt_R0.
  assert (Ep : p * p = normSq b1) by (apply sqrt_def; lra). assert (Eq : q * q = normSq b2) by (apply sqrt_def; lra).
  assert (Es : sqrt (normSq b1 * normSq b2) = p * q) by (apply sqrt_mult; lra).
  set (c := vdot (vdivs b1 p) (vdivs b2 q)).
  assert (Ec : c = vdot b1 b2 / (p * q)).
  { unfold c, vdot, vdivs; simpl. field. lra. }
  split; [by rewrite Es|].
  intros e1 e2.
  assert (D1 : is_derive (fun t => vdot (move b1 e1 t) (move b2 e2 t)) 0 (vdot b1 e2 + vdot e1 b2)).
  { apply (is_derive_ext (fun t => vdot b1 b2 + t * (vdot b1 e2 + vdot e1 b2) + t * t * vdot e1 e2)).
    - intros t. by rewrite vdot_move.
    - auto_derive; [done|ring]. }
  assert (D2 : is_derive (fun t => normSq (move b1 e1 t)) 0 (2 * vdot b1 e1)).
  { apply (is_derive_ext (fun t => normSq b1 + t * (2 * vdot b1 e1) + t * t * normSq e1)).
    - intros t. by rewrite normSq_move.
    - auto_derive; [done|ring]. }
  assert (D3 : is_derive (fun t => normSq (move b2 e2 t)) 0 (2 * vdot b2 e2)).
  { apply (is_derive_ext (fun t => normSq b2 + t * (2 * vdot b2 e2) + t * t * normSq e2)).
    - intros t. by rewrite normSq_move.
    - auto_derive; [done|ring]. }
  assert (M1 : move b1 e1 0 = b1) by (destruct b1; unfold move, vadd, vscale; simpl; f_equal; ring).
  assert (M2 : move b2 e2 0 = b2) by (destruct b2; unfold move, vadd, vscale; simpl; f_equal; ring).
  pose proof (quot_derive _ _ _ _ _ _ D1 D2 D3) as D. cbv beta in D. rewrite M1, M2 in D.
  specialize (D P1 P2). rewrite Es, <- Ep, <- Eq in D.
  apply (is_derive_eq _ _ _ _ D). clear D D1 D2 D3.
  assert (X1 : vdot (vdivs (vsub (vdivs b2 q) (vscale c (vdivs b1 p))) p) e1 = (vdot e1 b2 / q - c * (vdot b1 e1 / p)) / p).
  { unfold vdot, vdivs, vsub, vscale; simpl. field. lra. }
  assert (X2 : vdot (vdivs (vsub (vdivs b1 p) (vscale c (vdivs b2 q))) q) e2 = (vdot b1 e2 / p - c * (vdot b2 e2 / q)) / q).
  { unfold vdot, vdivs, vsub, vscale; simpl. field. lra. }
  rewrite X1, X2, Ec. field. lra.
Qed.

Lemma is_grad2_comp (g : R -> R) f b1 b2 d1 d2 g' :
  is_derive g (f b1 b2) g' -> is_grad2 f b1 b2 d1 d2 ->
  is_grad2 (fun x y => g (f x y)) b1 b2 (vscale g' d1) (vscale g' d2).
Proof.
  intros Hg Hf e1 e2. specialize (Hf e1 e2).
  assert (M1 : move b1 e1 0 = b1) by (destruct b1; unfold move, vadd, vscale; simpl; f_equal; ring).
  assert (M2 : move b2 e2 0 = b2) by (destruct b2; unfold move, vadd, vscale; simpl; f_equal; ring).
  assert (Hg' : is_derive g (f (move b1 e1 0) (move b2 e2 0)) g') by by rewrite M1, M2.
  pose proof (is_derive_comp g (fun t => f (move b1 e1 t) (move b2 e2 t)) 0 _ _ Hg' Hf) as D.
  apply (is_derive_eq _ _ _ _ D). unfold scal; simpl. unfold mult; simpl.
  unfold vdot, vscale; simpl. ring.
Qed.

Lemma is_grad2_ext f b1 b2 d1 d2 d1' d2' : d1 = d1' -> d2 = d2' -> is_grad2 f b1 b2 d1 d2 -> is_grad2 f b1 b2 d1' d2'.
Proof. by intros -> ->. Qed.

(** Moving atoms: forces on the three atoms are minus the gradient in the atom positions. *)
Lemma angle_atoms_grad f r0 r1 r2 g1 g2 :
  is_grad2 f (vsub r1 r0) (vsub r2 r1) g1 g2 ->
  let fs := angle_atom_forces (g1, g2) in
  is_grad3 (fun x0 x1 x2 => f (vsub x1 x0) (vsub x2 x1)) r0 r1 r2 (vopp (vx fs)) (vopp (vy fs)) (vopp (vz fs)).
Proof.
  intros H fs e0 e1 e2. specialize (H (vsub e1 e0) (vsub e2 e1)).
  apply (is_derive_ext (fun t => f (move (vsub r1 r0) (vsub e1 e0) t) (move (vsub r2 r1) (vsub e2 e1) t))).
  { intros t. f_equal; unfold move, vadd, vsub, vscale; simpl; f_equal; ring. }
  apply (is_derive_eq _ _ _ _ H). unfold fs, angle_atom_forces, vopp, vdot, vadd, vsub, vscale; simpl. ring.
Qed.
