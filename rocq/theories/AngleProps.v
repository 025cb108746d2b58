(** Property C36: angle interactions; the angle part of C56. *)
From Verif Require Import Base Vec3 BoxSpec BondModel AngleModel GradSpec AngleSpec AngleProofs Deriv.
From Coq Require Import Reals Lra.
From Coquelicot Require Import Coquelicot.
Local Open Scope R_scope.

Lemma cosine_eq b1 b2 : cosine b1 b2 = vdot b1 b2 / sqrt (normSq b1 * normSq b2).
Proof. unfold cosine. by rewrite <- sqrt_mult by apply normSq_nonneg. Qed.

(** Bend::computeAngle: the clamp never acts on exact values. *)
Theorem bend_cos_exact : forall b1 b2, 0 < normSq b1 -> 0 < normSq b2 ->
  bend_cos b1 b2 = cosine b1 b2 /\ -1 <= cosine b1 b2 <= 1.
Proof.
  intros b1 b2 P1 P2. rewrite cosine_eq. unfold bend_cos.
  assert (PP : 0 < normSq b1 * normSq b2) by nra.
  set (d := sqrt (normSq b1 * normSq b2)). assert (Pd : 0 < d) by by apply sqrt_lt_R0.
  assert (Ed : d * d = normSq b1 * normSq b2) by (apply sqrt_def; lra).
  pose proof (vdot_cauchy b1 b2) as C. rewrite <- Ed in C.
  set (c := vdot b1 b2 / d). assert (Ec : c * d = vdot b1 b2) by (unfold c; field; lra).
  rewrite <- Ec in C. assert (c * c <= 1) by nra. assert (-1 <= c <= 1) by nra.
  destruct (Rgt_dec c 1); [lra|]. destruct (Rlt_dec c (-1)); [lra|]. done.
Qed.

Lemma torque_free b1 b2 g : 0 < normSq b1 -> 0 < normSq b2 ->
  let '(c, d1, d2) := bend_derivs b1 b2 in
  vadd (cross b1 (vscale g d1)) (cross b2 (vscale g d2)) = vzero.
Proof.
  intros P1 P2. unfold bend_derivs, vabs.
  assert (Pp : 0 < sqrt (normSq b1)) by by apply sqrt_lt_R0. assert (Pq : 0 < sqrt (normSq b2)) by by apply sqrt_lt_R0.
  set (p := sqrt (normSq b1)) in *. set (q := sqrt (normSq b2)) in *.
  set (c := vdot (vdivs b1 p) (vdivs b2 q)). clearbody c p q.
  unfold vadd, cross, vscale, vdivs, vsub, vzero; simpl. f_equal; field; lra.
Qed.

Lemma angle_ok_of_grad (en : R -> R) r0 r1 r2 g' : 
  let b1 := vsub r1 r0 in let b2 := vsub r2 r1 in
  0 < normSq b1 -> 0 < normSq b2 -> is_derive en (cosine b1 b2) g' ->
  let '(c, d1, d2) := bend_derivs b1 b2 in
  angle_forces_ok en r0 r1 r2 (angle_atom_forces (vscale g' d1, vscale g' d2)) /\
  is_grad2 (fun x y => en (cosine x y)) b1 b2 (vscale g' d1) (vscale g' d2).
Proof.
  intros b1 b2 P1 P2 D. pose proof (bend_grad b1 b2 P1 P2) as G. pose proof (torque_free b1 b2 g' P1 P2) as T.
  destruct (bend_derivs b1 b2) as [[c d1] d2]. destruct G as [_ G].
  assert (G' : is_grad2 cosine b1 b2 d1 d2).
  { intros e1 e2. eapply is_derive_ext; [|apply G]. intros t. by rewrite cosine_eq. }
  pose proof (is_grad2_comp en cosine b1 b2 d1 d2 g' D G') as GE.
  split; [|exact GE]. split; [|split].
  - apply (angle_atoms_grad (fun x y => en (cosine x y)) r0 r1 r2). exact GE.
  - unfold angle_atom_forces, vadd, vsub, vzero; simpl. f_equal; ring.
  - generalize dependent (vscale g' d1). intros f1 T _. generalize dependent (vscale g' d2). intros f2 T.
    assert (E : vadd (cross r0 f1) (vadd (cross r1 (vadd (vsub (V3 0 0 0) f1) f2)) (cross r2 (vsub (V3 0 0 0) f2))) =
                vopp (vadd (cross b1 f1) (cross b2 f2))).
    { unfold b1, b2, vadd, cross, vopp, vscale, vsub; simpl. f_equal; ring. }
    simpl. rewrite E, T. unfold vopp, vscale, vzero; simpl. f_equal; ring.
Qed.

(** C36, CosineAngle. *)
Theorem cosine_angle_force_is_gradient :
  forall n k ops a i kap r0 r1 r2,
  ca_life n k ops = Ok a -> ca_get a AKappa i = Ok kap ->
  let b1 := vsub r1 r0 in let b2 := vsub r2 r1 in 0 < normSq b1 -> 0 < normSq b2 ->
  ca_energy a (cosine b1 b2) i = kap * (1 - cosine b1 b2) /\
  is_grad2 (fun x y => ca_energy a (cosine x y) i) b1 b2 (fst (ca_force a b1 b2 i)) (snd (ca_force a b1 b2 i)) /\
  angle_forces_ok (fun c => ca_energy a c i) r0 r1 r2 (angle_atom_forces (ca_force a b1 b2 i)).
Proof.
  intros n k ops a i kap r0 r1 r2 _ [= <-] b1 b2 P1 P2. split; [done|].
  assert (D : is_derive (fun c => ca_energy a c i) (cosine b1 b2) (- caK a i)).
  { unfold ca_energy. auto_derive; [done|ring]. }
  pose proof (angle_ok_of_grad _ r0 r1 r2 _ P1 P2 D) as H. fold b1 b2 in H.
  unfold bend_derivs, vabs in H.
  replace (ca_force a b1 b2 i) with
    (vscale (- caK a i) (vdivs (vsub (vdivs b2 (sqrt (normSq b2)))
        (vscale (vdot (vdivs b1 (sqrt (normSq b1))) (vdivs b2 (sqrt (normSq b2)))) (vdivs b1 (sqrt (normSq b1))))) (sqrt (normSq b1))),
     vscale (- caK a i) (vdivs (vsub (vdivs b1 (sqrt (normSq b1)))
        (vscale (vdot (vdivs b1 (sqrt (normSq b1))) (vdivs b2 (sqrt (normSq b2)))) (vdivs b2 (sqrt (normSq b2))))) (sqrt (normSq b2)))).
  { split; [apply H|]. apply H. }
  unfold ca_force, vabs. assert (Pp : 0 < sqrt (normSq b1)) by by apply sqrt_lt_R0. assert (Pq : 0 < sqrt (normSq b2)) by by apply sqrt_lt_R0.
  set (c := vdot (vdivs b1 (sqrt (normSq b1))) (vdivs b2 (sqrt (normSq b2)))). clearbody c.
  unfold vscale, vdivs, vsub; simpl. f_equal; f_equal; field; lra.
Qed.

(** C36, CosineSqAngle. *)
Theorem cosineSq_angle_force_is_gradient :
  forall n k t ops a i r0 r1 r2,
  cs_life n k t ops = Ok a ->
  let b1 := vsub r1 r0 in let b2 := vsub r2 r1 in 0 < normSq b1 -> 0 < normSq b2 ->
  is_grad2 (fun x y => cs_energy a (cosine x y) i) b1 b2 (fst (cs_force a b1 b2 i)) (snd (cs_force a b1 b2 i)) /\
  angle_forces_ok (fun c => cs_energy a c i) r0 r1 r2 (angle_atom_forces (cs_force a b1 b2 i)).
Proof.
  intros n k t ops a i r0 r1 r2 _ b1 b2 P1 P2.
  assert (D : is_derive (fun c => cs_energy a c i) (cosine b1 b2) (csK a i * (cosine b1 b2 - csC a i))).
  { unfold cs_energy. auto_derive; [done|field]. }
  pose proof (angle_ok_of_grad _ r0 r1 r2 _ P1 P2 D) as H. fold b1 b2 in H.
  unfold bend_derivs, vabs in H.
  replace (cs_force a b1 b2 i) with
    (vscale (csK a i * (cosine b1 b2 - csC a i)) (vdivs (vsub (vdivs b2 (sqrt (normSq b2)))
        (vscale (vdot (vdivs b1 (sqrt (normSq b1))) (vdivs b2 (sqrt (normSq b2)))) (vdivs b1 (sqrt (normSq b1))))) (sqrt (normSq b1))),
     vscale (csK a i * (cosine b1 b2 - csC a i)) (vdivs (vsub (vdivs b1 (sqrt (normSq b1)))
        (vscale (vdot (vdivs b1 (sqrt (normSq b1))) (vdivs b2 (sqrt (normSq b2)))) (vdivs b2 (sqrt (normSq b2))))) (sqrt (normSq b2)))).
  { split; [apply H|]. apply H. }
  unfold cs_force, vabs. assert (Pp : 0 < sqrt (normSq b1)) by by apply sqrt_lt_R0. assert (Pq : 0 < sqrt (normSq b2)) by by apply sqrt_lt_R0.
  replace (cosine b1 b2) with (vdot (vdivs b1 (sqrt (normSq b1))) (vdivs b2 (sqrt (normSq b2)))).
  2: { unfold cosine, vdot, vdivs; simpl. field. lra. }
  set (c := vdot (vdivs b1 (sqrt (normSq b1))) (vdivs b2 (sqrt (normSq b2)))). clearbody c.
  unfold vscale, vdivs, vsub; simpl. f_equal; f_equal; field; lra.
Qed.

(** C36, HarmonicAngle, where sin(theta) > 1e-10. *)
Theorem harmonic_angle_force_is_gradient :
  forall n k t ops a i kap th r0 r1 r2,
  ha_life n k t ops = Ok a -> ha_get a AKappa i = Ok kap -> ha_get a ATheta0 i = Ok th ->
  let b1 := vsub r1 r0 in let b2 := vsub r2 r1 in 0 < normSq b1 -> 0 < normSq b2 ->
  1 / 10 ^ 10 < sqrt (1 - cosine b1 b2 ^ 2) ->
  ha_energy a (cosine b1 b2) i = 1/2 * kap * (acos (cosine b1 b2) - th) ^ 2 /\
  is_grad2 (fun x y => ha_energy a (cosine x y) i) b1 b2 (fst (ha_force a b1 b2 i)) (snd (ha_force a b1 b2 i)) /\
  angle_forces_ok (fun c => ha_energy a c i) r0 r1 r2 (angle_atom_forces (ha_force a b1 b2 i)).
Proof.
  intros n k t ops a i kap th r0 r1 r2 _ [= <-] [= <-] b1 b2 P1 P2 Hs. split; [unfold ha_energy; ring|].
  assert (Hs0 : 0 < 1 - cosine b1 b2 ^ 2).
  { destruct (Rlt_dec 0 (1 - cosine b1 b2 ^ 2)) as [|L]; [done|]. rewrite sqrt_neg_0 in Hs by lra.
    assert (0 < 1 / 10 ^ 10) by (apply Rdiv_lt_0_compat; [lra|apply pow_lt; lra]). lra. }
  assert (Hc : -1 < cosine b1 b2 < 1) by nra.
  assert (D : is_derive (fun c => ha_energy a c i) (cosine b1 b2)
     (haK a i * (haT a i - acos (cosine b1 b2)) / sqrt (1 - cosine b1 b2 ^ 2))).
  { pose proof (proj1 (derive_pt_eq _ _ _ _) (derive_pt_acos _ Hc)) as DA. apply is_derive_Reals in DA.
    assert (Pq : 0 < sqrt (1 - cosine b1 b2 ^ 2)) by by apply sqrt_lt_R0.
    assert (G : forall (f : R -> R) (x l : R), is_derive f x l ->
       is_derive (fun c => 1/2 * haK a i * (f c - haT a i) * (f c - haT a i)) x (haK a i * (f x - haT a i) * l)).
    { intros f x l Hf. auto_derive; [repeat split; eexists; exact Hf|].
      replace (Derive (fun x => f x) x) with l by (symmetry; apply is_derive_unique; done). field. }
    eapply is_derive_eq; [apply (G acos); exact DA|].
    replace (1 - Rsqr (cosine b1 b2)) with (1 - cosine b1 b2 ^ 2) by (unfold Rsqr; ring). field. lra. }
  pose proof (angle_ok_of_grad _ r0 r1 r2 _ P1 P2 D) as H. fold b1 b2 in H.
  pose proof (bend_grad b1 b2 P1 P2) as G.
  unfold ha_force. destruct (bend_derivs b1 b2) as [[c d1] d2]. destruct G as [Ec _].
  rewrite <- cosine_eq in Ec. rewrite Ec. unfold bend_sin, bend_theta.
  replace (cosine b1 b2 * cosine b1 b2) with (cosine b1 b2 ^ 2) by ring.
  destruct (Rgt_dec (sqrt (1 - cosine b1 b2 ^ 2)) (1 / 10 ^ 10)) as [_|N]; [|lra].
  split; apply H.
Qed.

(** C56, angles.  CosineAngle and HarmonicAngle have no derived constants, so their energies
    above are those of the reported parameters.  CosineSqAngle as read agrees with the reported
    angle; after set("theta0",...) it does not. *)
Theorem cosineSq_angle_reports_partial :
  forall n k t a i kap th c,
  cs_life n k t [] = Ok a -> (i < n)%nat -> cs_get a AKappa i = Ok kap -> cs_get a ATheta0 i = Ok th ->
  kap = k i /\ th = t i /\ cs_energy a c i = 1/2 * kap * (c - cos (th * PI / 180)) ^ 2.
Proof.
  intros n k t a i kap th c H Hi [= <-] [= <-]. unfold cs_life in H.
  apply obind_Ok in H as (a1 & H1 & H). apply obind_Ok in H as (a2 & H2 & H). injection H as ->.
  unfold cs_setN in H1. destruct (4 <? n)%nat; [done|]. injection H1 as <-.
  unfold cs_read in H2. simpl in H2. destruct (n =? 0)%nat; [done|]. injection H2 as <-. simpl.
  unfold cs_energy, pread; simpl. destruct (Nat.ltb_spec i n); [|lia]. split; [done|]. split; [done|].
  replace (t i * PI / 180) with (t i / 180 * PI) by (unfold Rdiv; ring). field.
Qed.
Theorem cosineSq_angle_set_refuted :
  forall n k t i x a, cs_life n k t (AngleSet ATheta0 i x :: nil) = Ok a -> (i < n)%nat ->
  k i <> 0 -> cos (x * PI / 180) <> cos (t i * PI / 180) ->
  cs_get a ATheta0 i = Ok x /\ cs_energy a (cos (x * PI / 180)) i <> 0 /\ cs_energy a (cos (t i * PI / 180)) i = 0.
Proof.
  intros n k t i x a H Hi Hk Hne. unfold cs_life in H.
  apply obind_Ok in H as (a1 & H1 & H). apply obind_Ok in H as (a2 & H2 & H).
  unfold cs_setN in H1. destruct (4 <? n)%nat; [done|]. injection H1 as <-.
  unfold cs_read in H2. simpl in H2. destruct (n =? 0)%nat; [done|]. injection H2 as <-. simpl in H.
  destruct (i <? 4)%nat; [|done]. simpl in H. injection H as <-. simpl.
  unfold cs_energy, pread, pset; simpl. rewrite Nat.eqb_refl. destruct (Nat.ltb_spec i n); [|lia].
  replace (t i / 180 * PI) with (t i * PI / 180) by (unfold Rdiv; ring).
  split; [done|]. split; [|ring].
  repeat apply Rmult_integral_contrapositive_currified; lra.
Qed.

Example angle_ex : exists a h s, ca_life 1 (fun _ => 2) (AngleSet AKappa 0 3 :: nil) = Ok a /\
  ha_life 1 (fun _ => 2) (fun _ => 90) [] = Ok h /\ cs_life 2 (fun _ => 2) (fun _ => 90) (AngleSet ATheta0 1 0 :: nil) = Ok s.
Proof. eexists _, _, _. split; [reflexivity|]. split; reflexivity. Qed.
Example angle_geometry_ex :
  let r0 := V3 0 0 0 in let r1 := V3 1 0 0 in let r2 := V3 1 1 0 in
  0 < normSq (vsub r1 r0) /\ 0 < normSq (vsub r2 r1) /\ 1 / 10 ^ 10 < sqrt (1 - cosine (vsub r1 r0) (vsub r2 r1) ^ 2).
Proof.
  unfold cosine, normSq, vdot, vsub; simpl. split; [lra|]. split; [lra|].
  match goal with |- _ < sqrt ?e => replace e with 1 end.
  - rewrite sqrt_1. lra.
  - unfold Rdiv. ring.
Qed.
Example cosineSq_set_ex : (fun _ : nat => 2) 0%nat <> 0 /\ cos (0 * PI / 180) <> cos (180 * PI / 180).
Proof.
  split; [lra|]. replace (0 * PI / 180) with 0 by field. replace (180 * PI / 180) with PI by field.
  rewrite cos_0, cos_PI. lra.
Qed.

Print Assumptions bend_cos_exact.
Print Assumptions cosine_angle_force_is_gradient.
Print Assumptions cosineSq_angle_force_is_gradient.
Print Assumptions harmonic_angle_force_is_gradient.
Print Assumptions cosineSq_angle_reports_partial.
Print Assumptions cosineSq_angle_set_refuted.
