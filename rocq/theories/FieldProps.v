(** Properties C87-C89: external fields. *)
From Coq Require Import Reals Lra.
From Coquelicot Require Import Coquelicot.
From Verif Require Import Base Vec3 BoxSpec GradSpec OrthoModel WallModel FieldModel FieldSpec FieldProofs.
From Coq Require Import Reals Lra.
Local Open Scope R_scope.

(** ** C87 *)
(** Forces. *)
Theorem periodic_fields_conservative :
  (forall x L type, (0 <= laDir x < 3)%Z ->
     conservative (fun p => lamellar_energy x L p type) (fun p => lamellar_getForce x L p type)) /\
  (forall x L type, conservative (fun p => simple_energy x L p type) (fun p => simple_getForce x L p type)) /\
  (forall x L type, conservative (fun p => periodic_energy x L p type) (fun p => periodic_getForce x L p type)) /\
  (forall x L type, conservative (fun p => general_energy x L p type) (fun p => general_getForce x L p type)).
Proof.
  split; [exact lamellar_grad|]. split; [exact simple_grad|]. split; [exact periodic_grad|exact general_grad].
Qed.

(** Energies are the documented ones; for PeriodicExternal if the constant is zero. *)
Theorem periodic_fields_documented :
  (forall x L p type, (0 <= laDir x < 3)%Z -> positive3 L ->
     lamellar_energy x L p type =
     clipped (nth type (laPre x) 0) (laExt x) 0 (laPer x) (laWidth x) L p
             [Wave 1 (vset (V3 0 0 0) (Z.to_nat (laDir x)) 1) 0 (V3 0 0 0)]) /\
  (forall x L p type, simple_energy x L p type =
     clipped (nth type (siPre x) 0) (siExt x) 0 (siPer x) (siWidth x) L p
             (map (fun i => Wave 1 (vmap IZR (nth i (siWaves x) (V3 0 0 0)%Z)) 0 (V3 0 0 0)) (seq 0 (siN x)))) /\
  (forall x L p type, peC x = 0 -> periodic_energy x L p type =
     clipped (nth type (pePre x) 0) (peExt x) (peC x) (pePer x) (peWidth x) L p
             (map (fun i => Wave 1 (nth i (peWaves x) (V3 0 0 0)) (nth i (pePhases x) 0) (peShift x)) (seq 0 (peN x)))) /\
  (forall x L p type, general_energy x L p type =
     clipped 1 (geExt x) 0 (gePer x) (geWidth x) L p
             (map (fun i => Wave (nth (i * geTypes x + type) (gePre x) 0) (nth i (geWaves x) (V3 0 0 0)) (nth i (gePhases x) 0)
                                 (V3 (nth (i * 3) (geShifts x) 0) (nth (i * 3 + 1) (geShifts x) 0) (nth (i * 3 + 2) (geShifts x) 0)))
                  (seq 0 (geN x)))).
Proof.
  split; [exact lamellar_documented|]. split; [exact simple_documented|]. split.
  - intros x L p type H. rewrite periodic_plus. unfold clipped_plus, clipped. rewrite H, !Rplus_0_l. done.
  - intros x L p type. rewrite general_documented. unfold ge_waves, ge_shift. f_equal. apply map_ext. intros i.
    rewrite Nat.add_0_r. done.
Qed.

(** The constant C of PeriodicExternal is not multiplied by the clip parameter, although documented. *)
Theorem periodic_constant_refuted : forall x L p type,
  nth type (pePre x) 0 * peExt x <> 0 -> peC x <> 0 -> 2 * PI * IZR (pePer x) * peWidth x <> 1 -> 2 * PI * IZR (pePer x) * peWidth x <> 0 ->
  periodic_energy x L p type <>
  clipped (nth type (pePre x) 0) (peExt x) (peC x) (pePer x) (peWidth x) L p
          (map (fun i => Wave 1 (nth i (peWaves x) (V3 0 0 0)) (nth i (pePhases x) 0) (peShift x)) (seq 0 (peN x))).
Proof.
  intros x L p type HA HC H1 H0 E. rewrite periodic_plus in E. unfold clipped_plus, clipped in E. fold (pe_waves x) in E.
  apply Rmult_eq_reg_l in E; [|exact HA]. apply tanh_inj in E. set (k := 2 * PI * IZR (pePer x) * peWidth x) in *.
  assert (F : peC x * (1 / k - 1) = 0) by lra.
  apply Rmult_integral in F as [F|F]; [done|]. apply H1. apply (Rmult_eq_reg_r (1 / k)).
  - transitivity 1; [field; done|]. lra.
  - unfold Rdiv. rewrite Rmult_1_l. by apply Rinv_neq_0_compat.
Qed.

(** Images, and bounds. *)
Theorem periodic_fields_images :
  (forall x L type, (0 <= laDir x < 3)%Z -> positive3 L -> image_invariant L (fun p => lamellar_energy x L p type)) /\
  (forall x L type, positive3 L -> image_invariant L (fun p => simple_energy x L p type)) /\
  (forall x L type, positive3 L -> length (peWaves x) = peN x -> Forall int_vec (peWaves x) ->
     image_invariant L (fun p => periodic_energy x L p type)) /\
  (forall x L type, positive3 L -> length (geWaves x) = geN x -> Forall int_vec (geWaves x) ->
     image_invariant L (fun p => general_energy x L p type)).
Proof.
  assert (N : forall (l : list (vec3 R)) n i, length l = n -> Forall int_vec l -> i ∈ seq 0 n -> int_vec (nth i l (V3 0 0 0))).
  { intros l n i Hl F Hi. apply elem_of_list_In, in_seq in Hi. rewrite Forall_forall in F. apply F. apply elem_of_list_In, nth_In. lia. }
  repeat split.
  - intros x L type Hd HL p n. rewrite !lamellar_documented by done. unfold clipped. rewrite cosines_image; [done|done|].
    repeat constructor. unfold la_wave. cbn [waVec].
    assert (H3 : (Z.to_nat (laDir x) < 3)%nat) by lia. destruct (Z.to_nat (laDir x)) as [|[|[|d]]]; [| | |lia].
    + by exists (V3 1 0 0)%Z.
    + by exists (V3 0 1 0)%Z.
    + by exists (V3 0 0 1)%Z.
  - intros x L type HL p n. rewrite !simple_documented. unfold clipped. rewrite cosines_image; [done|done|].
    apply Forall_forall. intros w Hw. apply elem_of_list_In, in_map_iff in Hw as (i & <- & Hi). cbn [waVec]. by eexists.
  - intros x L type HL Hl F p n. rewrite !periodic_plus. unfold clipped_plus. rewrite cosines_image; [done|done|].
    apply Forall_forall. intros w Hw. apply elem_of_list_In, in_map_iff in Hw as (i & <- & Hi). cbn [waVec].
    apply (N _ (peN x)); [done|done|]. by apply elem_of_list_In.
  - intros x L type HL Hl F p n. rewrite !general_documented. unfold clipped. rewrite cosines_image; [done|done|].
    apply Forall_forall. intros w Hw. apply elem_of_list_In, in_map_iff in Hw as (i & <- & Hi). cbn [waVec].
    apply (N _ (geN x)); [done|done|]. by apply elem_of_list_In.
Qed.

(** Without integer wave vectors images have different energies. *)
Theorem periodic_images_refuted : exists x L, positive3 L /\ length (peWaves x) = peN x /\
  ~ image_invariant L (fun p => periodic_energy x L p 0).
Proof.
  exists (Periodic [1] 1 1 0 [V3 (1 / 2) 0 0] [0] (V3 0 0 0) 1 1), (V3 1 1 1). split; [unfold positive3; cbn [vx vy vz]; lra|].
  split; [done|]. intros H. specialize (H (V3 0 0 0) (V3 1 0 0)%Z). cbv beta in H. rewrite !periodic_plus in H.
  unfold clipped_plus, pe_waves in H. cbn [pePre peExt peN peC peWaves pePhases peShift peWidth pePer nth seq map cosines vx vy vz vsub waAmp waVec waPhase waOrigin] in H.
  apply Rmult_eq_reg_l in H; [|lra]. apply tanh_inj in H. pose proof PI_RGT_0.
  assert (K : 1 / (2 * PI * 1 * 1) <> 0). { unfold Rdiv. apply Rmult_integral_contrapositive; split; [lra|apply Rinv_neq_0_compat; lra]. }
  assert (E : forall a b, 0 + 1 / (2 * PI * 1 * 1) * a = 0 + 1 / (2 * PI * 1 * 1) * b -> a = b).
  { intros a b F. apply (Rmult_eq_reg_l (1 / (2 * PI * 1 * 1))); [lra|done]. }
  apply E in H. replace (2 * PI * 1 * _ + 0) with PI in H by field.
  rewrite cos_PI in H. replace (2 * PI * 1 * _ + 0) with 0 in H by field. rewrite cos_0 in H. lra.
Qed.

(** Energies are bounded by prefactor times external parameter, and linear in the external parameter. *)
Theorem periodic_fields_bounded :
  (forall x L p type, (0 <= laDir x < 3)%Z -> positive3 L -> Rabs (lamellar_energy x L p type) <= Rabs (nth type (laPre x) 0 * laExt x)) /\
  (forall x L p type, Rabs (simple_energy x L p type) <= Rabs (nth type (siPre x) 0 * siExt x)) /\
  (forall x L p type, Rabs (periodic_energy x L p type) <= Rabs (nth type (pePre x) 0 * peExt x)) /\
  (forall x L p type, Rabs (general_energy x L p type) <= Rabs (geExt x)).
Proof.
  assert (B : forall a t, Rabs (a * tanh t) <= Rabs a).
  { intros a t. rewrite Rabs_mult. pose proof (tanh_bound t). assert (Rabs (tanh t) <= 1) by (apply Rabs_le; lra).
    pose proof (Rabs_pos a). nra. }
  repeat split.
  - intros. rewrite lamellar_documented by done. apply B.
  - intros. rewrite simple_documented. apply B.
  - intros. rewrite periodic_plus. apply B.
  - intros. rewrite general_documented. unfold clipped. rewrite Rmult_1_l. apply B.
Qed.

(** ** C88: the nucleation field *)
(** The missing part of the force: minus the derivative of the factor of axis [c], times all other factors. *)
Definition nu_true_term (x : nucleation) (L p : vec3 R) (type c a b : nat) : R :=
  let y := nuPer x in
  let arg := nuClip x * (- nuBias x + cos (nu_angle x L p c)) in
  nth type (pePre y) 0 * peExt y * tanh (peC y + pe_cosine y L p * clipParameter (pePer y) (peWidth y)) *
  (nuClip x * (PI / vget L c * sin (nu_angle x L p c)) * (1 - tanh arg * tanh arg)) *
  nu_factor x L p a * nu_factor x L p b.

Lemma nu_factor_grad x L p c : (c < 3)%nat ->
  is_grad (fun p => nu_factor x L p c) p
    (vset (V3 0 0 0) c (- (nuClip x * (PI / vget L c * sin (nu_angle x L p c)) *
       (1 - tanh (nuClip x * (- nuBias x + cos (nu_angle x L p c))) * tanh (nuClip x * (- nuBias x + cos (nu_angle x L p c))))))).
Proof.
  intros Hc e. set (q := 2 * PI / vget L c).
  assert (A : forall t, nu_angle x L (move p e t) c = nu_angle x L p c + t * (q * vget e c)).
  { intros t. unfold nu_angle, move, vadd, vscale, q. destruct c as [|[|[|c]]]; [| | |lia]; cbn [vget vx vy vz]; unfold Rdiv; ring. }
  apply (is_derive_ext (fun t => (tanh (nuClip x * (- nuBias x + cos (nu_angle x L p c + t * (q * vget e c)))) + 1) / 2)).
  { intros t. unfold nu_factor. by rewrite A. }
  set (th := nu_angle x L p c). set (B := nuBias x). set (K := nuClip x).
  assert (D1 : is_derive (fun t => K * (- B + cos (th + t * (q * vget e c)))) 0 (K * (- sin th * (q * vget e c)))).
  { auto_derive; [done|]. rewrite Rmult_0_l, Rplus_0_r. ring. }
  assert (D2 : is_derive (fun t => tanh (K * (- B + cos (th + t * (q * vget e c))))) 0
                 (K * (- sin th * (q * vget e c)) * (1 - tanh (K * (- B + cos th)) * tanh (K * (- B + cos th))))).
  { evar_last. { apply (is_derive_comp tanh (fun t => K * (- B + cos (th + t * (q * vget e c))))); [apply tanh_derive|exact D1]. }
    unfold scal; simpl. unfold Hierarchy.mult; simpl. rewrite Rmult_0_l, Rplus_0_r. ring. }
  set (F := fun t => tanh (K * (- B + cos (th + t * (q * vget e c))))) in *.
  change (is_derive (fun t => (F t + 1) / 2) 0 (vdot (vset (V3 0 0 0) c (- (K * (PI / vget L c * sin th) *
     (1 - tanh (K * (- B + cos th)) * tanh (K * (- B + cos th)))))) e)).
  auto_derive; [eexists; exact D2|].
  assert (U : Derive F 0 = K * (- sin th * (q * vget e c)) * (1 - tanh (K * (- B + cos th)) * tanh (K * (- B + cos th))))
    by (apply is_derive_unique; exact D2).
  change (Derive (fun x => F x) 0) with (Derive F 0). rewrite U. unfold vdot, q. unfold Rdiv. clear - Hc. generalize (/ vget L c). intros il.
  destruct c as [|[|[|c]]]; [| | |lia]; cbn [vget vset vx vy vz]; field.
Qed.
Lemma grad_mult (f g : vec3 R -> R) p u v : is_grad f p u -> is_grad g p v ->
  is_grad (fun p => f p * g p) p (vadd (vscale (g p) u) (vscale (f p) v)).
Proof.
  intros Df Dg e. assert (M : move p e 0 = p) by (destruct p as [a1 a2 a3]; unfold move, vadd, vscale; cbn [vx vy vz]; f_equal; ring).
  specialize (Df e). specialize (Dg e).
  evar_last; [apply (is_derive_mult (fun t => f (move p e t)) (fun t => g (move p e t)) 0 _ _ Df Dg); intros; apply Rmult_comm|].
  unfold Hierarchy.plus, Hierarchy.mult; simpl. rewrite !M. unfold vdot, vadd, vscale. cbn [vx vy vz].
  match goal with |- ?a = ?b => change (@eq R a b) end. ring.
Qed.
(** The gradient of the energy. *)
Lemma nucleation_grad x L p type :
  let y := nuPer x in
  is_grad (fun p => nucleation_energy x L p type) p
    (vopp (vadd (vscale (nu_factor x L p 0 * nu_factor x L p 1 * nu_factor x L p 2) (periodic_getForce y L p type))
                (V3 (nu_true_term x L p type 0 1 2) (nu_true_term x L p type 1 0 2) (nu_true_term x L p type 2 0 1)))).
Proof.
  cbv zeta. pose proof (periodic_grad (nuPer x) L type p) as G.
  pose proof (nu_factor_grad x L p 0 ltac:(lia)) as G0. pose proof (nu_factor_grad x L p 1 ltac:(lia)) as G1.
  pose proof (nu_factor_grad x L p 2 ltac:(lia)) as G2.
  pose proof (grad_mult _ _ p _ _ (grad_mult _ _ p _ _ (grad_mult _ _ p _ _ G G0) G1) G2) as H.
  eapply grad_ext; [|eapply grad_eq; [|exact H]].
  - intros p'. reflexivity.
  - cbv beta. unfold nu_true_term. cbv zeta. unfold periodic_energy. cbv zeta.
    unfold vopp, vadd, vscale, vset. cbn [vx vy vz vget]. f_equal; ring.
Qed.
Lemma grad_unique (f : vec3 R -> R) p u v : is_grad f p u -> is_grad f p v -> u = v.
Proof.
  intros Du Dv. assert (E : forall e, vdot u e = vdot v e).
  { intros e. rewrite <- (is_derive_unique _ _ _ (Du e)). apply is_derive_unique. exact (Dv e). }
  pose proof (E (V3 1 0 0)) as E0. pose proof (E (V3 0 1 0)) as E1. pose proof (E (V3 0 0 1)) as E2.
  unfold vdot in *. cbn [vx vy vz] in *. destruct u as [u1 u2 u3], v as [v1 v2 v3]. cbn [vx vy vz] in *. f_equal; lra.
Qed.
Lemma nucleation_force_eq x L p type :
  nucleation_getForce x L p type =
  vadd (vscale (nu_factor x L p 0 * nu_factor x L p 1 * nu_factor x L p 2) (periodic_getForce (nuPer x) L p type))
       (V3 (nu_term x L p 0 1 2) (nu_term x L p 1 0 2) (nu_term x L p 2 0 1)).
Proof.
  unfold nucleation_getForce, periodic_getForce. destruct (pe_loop (nuPer x) L p) as [c v]. cbv zeta.
  unfold vadd. cbn [vx vy vz]. done.
Qed.
(** The force is right exactly where the terms added for the three axes are. *)
Theorem nucleation_force_partial : forall x L p type,
  is_grad (fun p => nucleation_energy x L p type) p (vopp (nucleation_getForce x L p type)) <->
  nu_term x L p 0 1 2 = nu_true_term x L p type 0 1 2 /\ nu_term x L p 1 0 2 = nu_true_term x L p type 1 0 2 /\
  nu_term x L p 2 0 1 = nu_true_term x L p type 2 0 1.
Proof.
  intros x L p type. rewrite nucleation_force_eq. split.
  - intros H. pose proof (grad_unique _ _ _ _ H (nucleation_grad x L p type)) as E.
    unfold vopp, vadd, vscale in E. cbn [vx vy vz] in E. injection E as E0 E1 E2. repeat split; lra.
  - intros (-> & -> & ->). apply nucleation_grad.
Qed.
(** In particular it is right where the gradients of the three factors vanish. *)
Theorem nucleation_force_flat_partial : forall x L p type,
  nuClip x = 0 \/ (forall c, (c < 3)%nat -> sin (nu_angle x L p c) = 0) ->
  is_grad (fun p => nucleation_energy x L p type) p (vopp (nucleation_getForce x L p type)).
Proof.
  intros x L p type H. apply nucleation_force_partial. unfold nu_term, nu_true_term. cbv zeta.
  destruct H as [H|H].
  - rewrite H. repeat split; unfold Rdiv; ring.
  - rewrite !H by lia. repeat split; unfold Rdiv; ring.
Qed.
(** Atoms that feel no field at all (prefactor or external parameter zero) feel a force wherever a factor varies. *)
Theorem nucleation_force_refuted :
  (forall x L p type, nth type (pePre (nuPer x)) 0 * peExt (nuPer x) = 0 -> nuClip x <> 0 -> positive3 L ->
     sin (nu_angle x L p 0) <> 0 ->
     (forall p', nucleation_energy x L p' type = 0) /\ vx (nucleation_getForce x L p type) <> 0) /\
  exists x L p, positive3 L /\ nth 0 (pePre (nuPer x)) 0 * peExt (nuPer x) = 1 /\
    ~ is_grad (fun p => nucleation_energy x L p 0) p (vopp (nucleation_getForce x L p 0)).
Proof.
  split.
  - intros x L p type HA HK (Lx & Ly & Lz) Hs. split.
    + intros p'. unfold nucleation_energy. cbv zeta. rewrite HA. ring.
    + rewrite nucleation_force_eq. unfold vadd, vscale, periodic_getForce. destruct (pe_loop (nuPer x) L p) as [c v].
      cbv zeta. unfold vscale. cbn [vx vy vz]. rewrite HA.
      assert (F : forall c, 0 < nu_factor x L p c).
      { intros i. unfold nu_factor. match goal with |- 0 < (tanh ?t + 1) / 2 => pose proof (tanh_bound t) end. lra. }
      pose proof (F 1%nat) as F1. pose proof (F 2%nat) as F2. pose proof (cosh_pos (nu_angle x L p 0)) as C0. pose proof PI_RGT_0 as P.
      assert (T : nu_term x L p 0 1 2 <> 0).
      { unfold nu_term. cbn [vget]. set (C := cosh (nu_angle x L p 0)) in *. set (S := sin (nu_angle x L p 0)) in *.
        assert (Q : 0 < PI * / vx L * (/ C * / C) * (nu_factor x L p 1 * nu_factor x L p 2)).
        { pose proof (Rinv_0_lt_compat _ C0). pose proof (Rinv_0_lt_compat _ Lx).
          apply Rmult_lt_0_compat; [|apply Rmult_lt_0_compat; done].
          apply Rmult_lt_0_compat; [apply Rmult_lt_0_compat; done|apply Rmult_lt_0_compat; done]. }
        intros E. assert (E' : nuClip x * S * (PI * / vx L * (/ C * / C) * (nu_factor x L p 1 * nu_factor x L p 2)) = 0).
        { rewrite <- E. unfold Rdiv. ring. }
        apply Rmult_integral in E' as [E'|E']; [|lra]. apply Rmult_integral in E' as [E'|E']; done. }
      intros E. apply T. rewrite <- E. ring.
  - exists (Nucleation (Periodic [1] 1 0 (-1) [] [] (V3 0 0 0) 1 1) 1 0), (V3 1 1 1), (V3 0 0 0).
    split; [unfold positive3; cbn [vx vy vz]; lra|]. split; [cbn [nuPer pePre peExt nth]; lra|].
    intros H. apply nucleation_force_partial in H as (H & _). revert H.
    set (x := Nucleation (Periodic [1] 1 0 (-1) [] [] (V3 0 0 0) 1 1) 1 0). set (L := V3 1 1 1). set (p := V3 0 0 0).
    assert (F : forall c, 0 < nu_factor x L p c).
    { intros i. unfold nu_factor. match goal with |- 0 < (tanh ?t + 1) / 2 => pose proof (tanh_bound t) end. lra. }
    pose proof (Rmult_lt_0_compat _ _ (F 1%nat) (F 2%nat)) as F12. pose proof PI_RGT_0 as P.
    assert (An : nu_angle x L p 0 = PI / 2).
    { unfold nu_angle, x, L, p. cbn [vget vx vy vz nuBias]. rewrite acos_0. field. }
    assert (T1 : tanh (-1) < 0).
    { unfold tanh. pose proof (cosh_pos (-1)). assert (sinh (-1) < 0).
      { unfold sinh. replace (- -1) with 1 by ring. assert (exp (-1) < exp 1) by (apply exp_increasing; lra). lra. }
      apply Rmult_lt_reg_r with (cosh (-1)); [done|]. unfold Rdiv. rewrite Rmult_assoc, Rinv_l by lra. lra. }
    assert (T0 : tanh 0 = 0) by (unfold tanh; rewrite sinh_0; unfold Rdiv; ring).
    assert (E1 : nu_true_term x L p 0 0 1 2 = tanh (-1) * PI * (nu_factor x L p 1 * nu_factor x L p 2)).
    { unfold nu_true_term. cbv zeta. rewrite An.
      change (pe_cosine (nuPer x) L p) with 0. change (nuClip x) with 1. change (nuBias x) with 0.
      change (peC (nuPer x)) with (-1). change (nth 0 (pePre (nuPer x)) 0) with 1. change (peExt (nuPer x)) with 1.
      change (vget L 0) with 1. rewrite sin_PI2, cos_PI2.
      replace (1 * (- 0 + 0)) with 0 by ring. rewrite T0, Rmult_0_l, Rplus_0_r. field. }
    assert (E2 : nu_term x L p 0 1 2 = PI / cosh (PI / 2) / cosh (PI / 2) * (nu_factor x L p 1 * nu_factor x L p 2)).
    { unfold nu_term. rewrite An, sin_PI2. change (nuClip x) with 1. change (vget L 0) with 1.
      pose proof (cosh_pos (PI / 2)). field. lra. }
    rewrite E1, E2. intros E. apply Rmult_eq_reg_r in E; [|lra].
    pose proof (cosh_pos (PI / 2)) as C.
    assert (0 < PI / cosh (PI / 2) / cosh (PI / 2)). { unfold Rdiv. pose proof (Rinv_0_lt_compat _ C).
      apply Rmult_lt_0_compat; [apply Rmult_lt_0_compat; done|done]. }
    nra.
Qed.

(** ** C88: the tabulated field *)
Definition ok_or_zero (e : outcome R) : R := match e with Ok v => v | _ => 0 end.
(** Distance from the centre of the box. *)
Definition centre_dist (L p : vec3 R) : R := sqrt (normSq (vsub p (vscale (1 / 2) L))).
(** [p] lies in the interior of the box, at a distance [r] between two nodes of the table. *)
Definition between_nodes (x : tabulated) (L p : vec3 R) (k : nat) : Prop :=
  0 < vx p < vx L /\ 0 < vy p < vy L /\ 0 < vz p < vz L /\ (S k < tabNr x)%nat /\
  INR k * tabDr x < centre_dist L p < (INR k + 1) * tabDr x.

Lemma sep_inside b L q i : oLen b = L -> oHalf b = vscale (1 / 2) L -> (i < 3)%nat ->
  0 < vget q i < vget L i -> (sep b q (vscale (1 / 2) L) i).1 = vget q i - vget (vscale (1 / 2) L) i.
Proof.
  intros HL HH Hi Hq. unfold sep, sep_axis. cbv zeta. rewrite HH.
  destruct (Rgt_dec _ _) as [G|G]; [|done]. exfalso.
  assert (vget (vscale (1 / 2) L) i = vget L i / 2).
  { destruct i as [|[|[|i]]]; [| | |lia]; unfold vscale; cbn [vget vx vy vz]; lra. }
  rewrite H in G. apply Rgt_lt in G. assert (Rabs (vget q i - vget L i / 2) <= vget L i / 2) by (apply Rabs_le; lra). lra.
Qed.
Lemma dist_inside b L q : oLen b = L -> oHalf b = vscale (1 / 2) L -> 
  0 < vx q < vx L -> 0 < vy q < vy L -> 0 < vz q < vz L ->
  distanceSq b q (vscale (1 / 2) L) = normSq (vsub q (vscale (1 / 2) L)) /\
  distanceSq_dr b q (vscale (1 / 2) L) = (normSq (vsub q (vscale (1 / 2) L)), vsub q (vscale (1 / 2) L)).
Proof.
  intros HL HH X Y Z. unfold distanceSq, distanceSq_dr. cbv zeta.
  rewrite (sep_inside b L q 0), (sep_inside b L q 1), (sep_inside b L q 2); try done; try lia.
  unfold normSq, vdot, vsub. cbn [vget vx vy vz]. split; [ring|done].
Qed.
Lemma Int_part_unique r (k : Z) : IZR k <= r < IZR k + 1 -> Int_part r = k.
Proof.
  intros H. destruct (base_Int_part r) as [A B].
  assert (IZR (Int_part r) < IZR (k + 1)) by (rewrite plus_IZR; lra). assert (IZR k < IZR (Int_part r + 1)) by (rewrite plus_IZR; lra).
  apply lt_IZR in H0, H1. lia.
Qed.
(** Energy and force strictly between two nodes. *)
Lemma tab_between x b L p type k : oLen b = L -> oHalf b = vscale (1 / 2) L -> 0 < tabDr x <= 1 ->
  tabMax x = (INR (tabNr x) - 1) * tabDr x -> tabMaxSq x = tabMax x * tabMax x ->
  between_nodes x L p k ->
  let u := nth type (tabPot x) [] in
  let r := centre_dist L p in
  tab_energy x b p type = Ok ((1 - (r - INR k * tabDr x)) * nth k u 0 + (r - INR k * tabDr x) * nth (S k) u 0) /\
  tab_getForce x b p type = Ok (vscale ((nth k u 0 - nth (S k) u 0) / tabDr x / r) (vsub p (vscale (1 / 2) L))).
Proof.
  intros HL HH [Hd Hd1] HM HS (X & Y & Z & Hk & R1 & R2). cbv zeta.
  pose proof (dist_inside b L p HL HH X Y Z) as [D1 D2].
  assert (N0 : 0 <= normSq (vsub p (vscale (1 / 2) L))) by (unfold normSq, vdot; nra).
  assert (Hr : centre_dist L p < tabMax x).
  { rewrite HM. apply (Rlt_le_trans _ _ _ R2). apply Rmult_le_compat_r; [lra|]. apply le_INR in Hk. rewrite !S_INR in Hk. lra. }
  assert (Hk0 : 0 <= INR k * tabDr x). { apply Rmult_le_pos; [apply pos_INR|lra]. }
  assert (LT : normSq (vsub p (vscale (1 / 2) L)) < tabMaxSq x).
  { rewrite HS. unfold centre_dist in Hr. rewrite <- (sqrt_sqrt _ N0).
    apply Rmult_le_0_lt_compat; try apply sqrt_pos; done. }
  assert (IP : Int_part (centre_dist L p / tabDr x) = Z.of_nat k).
  { apply Int_part_unique. rewrite <- INR_IZR_INZ. split.
    - apply Rmult_le_reg_r with (tabDr x); [lra|]. unfold Rdiv. rewrite Rmult_assoc, Rinv_l by lra. lra.
    - apply Rmult_lt_reg_r with (tabDr x); [lra|]. unfold Rdiv. rewrite Rmult_assoc, Rinv_l by lra. lra. }
  unfold tab_energy, tab_getForce. cbv zeta. rewrite HL, D1, D2. cbn [fst snd].
  destruct (Rlt_dec _ _) as [_|N]; [|done]. fold (centre_dist L p). rewrite IP.
  unfold rcheck. destruct (Z_le_dec 0 (Z.of_nat k)) as [_|N]; [|lia]. cbn [obind].
  destruct (Z_lt_dec (Z.of_nat k) (Z.of_nat (tabNr x) - 1)) as [_|N]; [|lia]. cbn [obind].
  rewrite <- INR_IZR_INZ.
  destruct (Rge_dec _ 0) as [_|N]; [|lra]. cbn [obind]. destruct (Rle_dec _ 1) as [_|N]; [|lra]. cbn [obind].
  unfold tab_at. rewrite Nat2Z.id. replace (Z.to_nat (Z.of_nat k + 1)) with (S k) by lia. split; done.
Qed.

Lemma loc_lt (f : R -> R) a b : continuous f 0 -> a < f 0 < b -> locally 0 (fun t => a < f t < b).
Proof.
  intros C [A B]. assert (P : 0 < Rmin (f 0 - a) (b - f 0)) by (apply Rmin_pos; lra).
  destruct (proj1 (filterlim_locally f (f 0)) C (mkposreal _ P)) as [d Hd]. exists d. intros t Ht. specialize (Hd t Ht).
  change (Rabs (f t - f 0) < Rmin (f 0 - a) (b - f 0)) in Hd. apply Rabs_def2 in Hd.
  pose proof (Rmin_l (f 0 - a) (b - f 0)). pose proof (Rmin_r (f 0 - a) (b - f 0)). lra.
Qed.
(** The energy is read off the table with distances in units of the wrong length: its gradient is the force times the
    spacing of the table.  The force is right if the spacing is 1. *)
Theorem tab_force_partial : forall rMax nr file b L type p k,
  oLen b = L -> oHalf b = vscale (1 / 2) L -> (2 <= nr)%nat -> 0 < rMax ->
  let x := tab_read rMax nr file in
  tabDr x <= 1 -> between_nodes x L p k -> 0 < centre_dist L p ->
  exists f, tab_getForce x b p type = Ok f /\
    is_grad (fun q => ok_or_zero (tab_energy x b q type)) p (vopp (vscale (tabDr x) f)).
Proof.
  intros rMax nr file b L type p k HL HH Hnr HrM x Hd1 HB Hr0.
  assert (Hn : 0 < INR nr - 1). { apply le_INR in Hnr. simpl in Hnr. lra. }
  assert (Hd : 0 < tabDr x). { unfold x, tab_read. cbn [tabDr]. apply Rdiv_lt_0_compat; lra. }
  assert (HM : tabMax x = (INR (tabNr x) - 1) * tabDr x). { unfold x, tab_read. cbn [tabMax tabNr tabDr]. field. lra. }
  assert (HS : tabMaxSq x = tabMax x * tabMax x) by reflexivity.
  clearbody x.
  pose proof (tab_between x b L p type k HL HH (conj Hd Hd1) HM HS HB) as [_ HF]. cbv zeta in HF.
  eexists; split; [exact HF|]. intros e.
  set (u := nth type (tabPot x) []) in *. set (r := centre_dist L p) in *.
  set (o := vscale (1 / 2) L) in *.
  set (g := fun t => centre_dist L (move p e t)).
  assert (M : move p e 0 = p) by (destruct p as [a1 a2 a3]; unfold move, vadd, vscale; cbn [vx vy vz]; f_equal; ring).
  assert (G0 : g 0 = r) by (unfold g; by rewrite M).
  assert (Nr : r * r = normSq (vsub p o)). { unfold r, centre_dist. fold o. apply sqrt_sqrt. unfold normSq, vdot. nra. }
  assert (DG : is_derive g 0 (vdot (vsub p o) e / r)).
  { unfold g, centre_dist. fold o.
    apply (is_derive_ext (fun t => sqrt (normSq (vsub p o) + t * (2 * vdot (vsub p o) e) + t * t * normSq e))).
    { intros t. f_equal. unfold normSq, vdot, vsub, move, vadd, vscale. cbn [vx vy vz]. ring. }
    assert (P : 0 < normSq (vsub p o)) by (rewrite <- Nr; nra).
    auto_derive. { rewrite !Rmult_0_l, !Rplus_0_r. done. }
    replace (normSq (vsub p o) + 0 * (2 * vdot (vsub p o) e) + 0 * 0 * normSq e) with (r * r) by (rewrite Nr; ring).
    rewrite sqrt_square by lra. field. lra. }
  assert (CG : continuous g 0).
  { apply (ex_derive_continuous (K := R_AbsRing) (V := R_NormedModule) g 0). exists (vdot (vsub p o) e / r). exact DG. }
  destruct HB as (X & Y & Z & Hk & R1 & R2).
  assert (LX : forall a d lo hi, lo < a < hi -> locally 0 (fun t => lo < a + t * d < hi)).
  { intros a d lo hi H. apply (loc_lt (fun t => a + t * d)); [|lra].
    apply (ex_derive_continuous (K := R_AbsRing) (V := R_NormedModule) (fun t => a + t * d) 0). auto_derive. done. }
  assert (LOC : locally 0 (fun t => between_nodes x L (move p e t) k)).
  { unfold between_nodes. pose proof (LX _ (vx e) _ _ X) as A1. pose proof (LX _ (vy e) _ _ Y) as A2. pose proof (LX _ (vz e) _ _ Z) as A3.
    pose proof (loc_lt g (INR k * tabDr x) ((INR k + 1) * tabDr x) CG ltac:(rewrite G0; split; done)) as A4.
    generalize (filter_and _ _ A1 (filter_and _ _ A2 (filter_and _ _ A3 A4))). apply filter_imp.
    intros t (B1 & B2 & B3 & B4). unfold move, vadd, vscale in *. cbn [vx vy vz] in *.
    repeat split; try lra; try done; apply B4. }
  apply (is_derive_ext_loc (fun t => (1 - (g t - INR k * tabDr x)) * nth k u 0 + (g t - INR k * tabDr x) * nth (S k) u 0)).
  { revert LOC. apply filter_imp. intros t Ht.
    pose proof (tab_between x b L _ type k HL HH (conj Hd Hd1) HM HS Ht) as [-> _]. done. }
  assert (EX : ex_derive g 0) by (exists (vdot (vsub p o) e / r); exact DG).
  auto_derive; [repeat split; exact EX|].
  assert (U : Derive g 0 = vdot (vsub p o) e / r) by (apply is_derive_unique; exact DG).
  change (Derive (fun x => g x) 0) with (Derive g 0). rewrite U.
  unfold vdot, vopp, vscale. cbn [vx vy vz]. field. split; lra.
Qed.
(** With another spacing the force is not minus the gradient, or the energy throws, although the table covers the point. *)
Theorem tab_force_refuted :
  (exists rMax nr file b p, (2 <= nr)%nat /\ 0 < rMax /\ oLen b = V3 8 8 8 /\ oHalf b = V3 4 4 4 /\
     centre_dist (V3 8 8 8) p < rMax /\
     let x := tab_read rMax nr file in
     exists f, tab_getForce x b p 0 = Ok f /\ ~ is_grad (fun q => ok_or_zero (tab_energy x b q 0)) p (vopp f)) /\
  (exists rMax nr file b p, (2 <= nr)%nat /\ 0 < rMax /\ oLen b = V3 8 8 8 /\ oHalf b = V3 4 4 4 /\
     centre_dist (V3 8 8 8) p < rMax /\ tab_energy (tab_read rMax nr file) b p 0 = Throw).
Proof.
  set (b := setOrthorhombic ortho_init (V3 8 8 8)).
  assert (HL : oLen b = V3 8 8 8). { unfold b, setOrthorhombic, ortho_reset, ortho_init, OrthoModel.vzero. cbn [oLen oMin vget vx vy vz]. f_equal; lra. }
  assert (HH : oHalf b = V3 4 4 4). { unfold b, setOrthorhombic, ortho_reset, ortho_init, OrthoModel.vzero, vmap. cbn [oHalf oMin vget vx vy vz]. f_equal; lra. }
  assert (HH' : oHalf b = vscale (1 / 2) (V3 8 8 8)). { rewrite HH. unfold vscale. cbn [vx vy vz]. f_equal; lra. }
  clearbody b.
  assert (Dist : forall a, 0 <= a -> centre_dist (V3 8 8 8) (V3 (4 + a) 4 4) = a).
  { intros a Ha. unfold centre_dist, normSq, vdot, vsub, vscale. cbn [vx vy vz].
    replace (_ + _ + _) with (a * a) by field. by apply sqrt_square. }
  split.
  - exists 1, 3%nat, [[4; 2; 0]], b, (V3 (4 + 1 / 4) 4 4).
    split; [lia|]. split; [lra|]. split; [done|]. split; [done|]. split; [rewrite Dist; lra|]. cbv zeta.
    set (x := tab_read 1 3 [[4; 2; 0]]).
    assert (Hdr : tabDr x = 1 / 2) by (unfold x, tab_read; cbn [tabDr INR]; field).
    assert (HB : between_nodes x (V3 8 8 8) (V3 (4 + 1 / 4) 4 4) 0).
    { unfold between_nodes. rewrite Dist, Hdr by lra. cbn [vx vy vz INR]. repeat split; try lra. simpl. lia. }
    pose proof (tab_force_partial 1 3 [[4; 2; 0]] b (V3 8 8 8) 0%nat (V3 (4 + 1 / 4) 4 4) 0%nat HL HH' ltac:(lia) ltac:(lra)) as H. cbv zeta in H. fold x in H.
    specialize (H ltac:(lra) HB ltac:(rewrite Dist; lra)). destruct H as (f & Hf & Hg). exists f. split; [done|]. intros Hg'.
    pose proof (grad_unique _ _ _ _ Hg Hg') as E.
    pose proof (tab_between x b (V3 8 8 8) (V3 (4 + 1 / 4) 4 4) 0%nat 0%nat HL HH' ltac:(lra)) as [_ F]; [|reflexivity|exact HB|].
    { unfold x at 1 2, tab_read. cbn [tabMax tabNr]. rewrite Hdr. cbn [INR]. lra. }
    pose proof (eq_trans (eq_sym F) Hf) as V. apply (f_equal (fun o => match o with Ok v => vx v | _ => 0 end)) in V. cbv beta iota in V.
    rewrite Dist, Hdr in V by lra. unfold vscale, vsub in V. cbn [vx vy vz] in V.
    change (nth 0 (nth 0 (tabPot x) []) 0) with (4 - 0) in V. change (nth 1 (nth 0 (tabPot x) []) 0) with (2 - 0) in V.
    replace ((4 - 0 - (2 - 0)) / (1 / 2) / (1 / 4) * (4 + 1 / 4 - 1 / 2 * 8)) with 4 in V by field. symmetry in V.
    apply (f_equal vx) in E. unfold vopp, vscale in E. cbn [vx vy vz] in E. rewrite V, Hdr in E. lra.
  - exists 4, 3%nat, [[4; 2; 0]], b, (V3 (4 + 3 / 2) 4 4).
    split; [lia|]. split; [lra|]. split; [done|]. split; [done|]. split; [rewrite Dist; lra|].
    unfold tab_energy. cbv zeta. rewrite HL.
    pose proof (dist_inside b (V3 8 8 8) (V3 (4 + 3 / 2) 4 4) HL HH') as D. cbn [vx vy vz] in D.
    destruct (D ltac:(lra) ltac:(lra) ltac:(lra)) as [-> _]. fold (centre_dist (V3 8 8 8) (V3 (4 + 3 / 2) 4 4)). rewrite Dist by lra.
    assert (Hdr : tabDr (tab_read 4 3 [[4; 2; 0]]) = 2) by (unfold tab_read; cbn [tabDr INR]; field). rewrite Hdr.
    assert (IP : Int_part (3 / 2 / 2) = 0%Z) by (apply Int_part_unique; lra). rewrite IP.
    destruct (Rlt_dec _ _) as [_|N].
    + unfold rcheck. destruct (Z_le_dec 0 0) as [_|N]; [|lia]. cbn [obind].
      destruct (Z_lt_dec 0 _) as [_|N]; [|cbn in N; lia]. cbn [obind].
      destruct (Rge_dec _ 0) as [_|N]; [|lra]. cbn [obind]. destruct (Rle_dec _ 1) as [N|_]; [lra|done].
    + exfalso. apply N. unfold tab_read. cbn [tabMaxSq]. unfold normSq, vdot, vsub, vscale. cbn [vx vy vz]. lra.
Qed.

(** ** C89: archives *)
Lemma xrds_app {A} (w : A -> list xword) rd l a : (forall v a, rd (w v ++ a) = Ok (v, a)) ->
  xrds rd (length l) (concat (map w l) ++ a) = Ok (l, a).
Proof.
  intros H. revert a. induction l as [|v l IH]; intros a; cbn [length map concat xrds app]; [done|].
  rewrite <- app_assoc, H. cbn [obind]. rewrite IH. done.
Qed.
Lemma xrdArr_app {A} (w : A -> list xword) rd l n a : (forall v a, rd (w v ++ a) = Ok (v, a)) ->
  Z.of_nat (length l) = n -> (0 < n)%Z -> xrdArr rd n (xwArr w l ++ a) = Ok (l, a).
Proof.
  intros H <- Hn. unfold xrdArr, xwArr, rcheck. destruct (Z_lt_dec _ _); [|done]. cbn [obind app xrdI].
  destruct (Z.eq_dec _ _); [|done]. cbn [obind]. rewrite Nat2Z.id. by apply xrds_app.
Qed.
Lemma xrdArr_zero {A} (rd : list xword -> outcome (A * list xword)) n a : (n <= 0)%Z -> xrdArr rd n a = Throw.
Proof. intros H. unfold xrdArr, rcheck. destruct (Z_lt_dec 0 n); [lia|done]. Qed.
Lemma rd1 v a : xrdD ([XD v] ++ a) = Ok (v, a). Proof. done. Qed.
Lemma rdV v a : xrdV (xwV v ++ a) = Ok (v, a). Proof. by destruct v. Qed.
Lemma rdZ v a : xrdZ (xwZ v ++ a) = Ok (v, a). Proof. by destruct v. Qed.

(** Loading what was saved gives back the same potential, and leaves the rest of the archive. *)
Theorem field_archive_partial :
  (forall x a, (0 <= laDir x < 3)%Z -> (0 < length (laPre x))%nat ->
     lamellar_load (Z.of_nat (length (laPre x))) (lamellar_save x ++ a) = Ok (x, a)) /\
  (forall x a, (0 < length (pePre x))%nat -> (0 < peN x)%nat -> length (peWaves x) = peN x -> length (pePhases x) = peN x ->
     periodic_load (Z.of_nat (length (pePre x))) (periodic_save x ++ a) = Ok (x, a)) /\
  (forall rMax nr file a, (0 < length file)%nat -> (2 <= nr)%nat -> Forall (fun u => length u = nr) file ->
     let x := tab_read rMax nr file in tab_load (tab_save x ++ a) = Ok (x, a)) /\
  (forall types w a, types <> 0%Z -> slit_load types (slit_save w ++ a) = Ok (w, a)) /\
  (forall types k w a, (0 < types)%Z -> (0 <= k <= 3)%Z -> orthobox_load (orthobox_save types k w ++ a) = Ok (types, k, w, a)).
Proof.
  split; [|split; [|split; [|split]]].
  - intros [dir pre ext width per] a Hd Hp. cbn [laDir laPre] in *. unfold lamellar_load, lamellar_save, rcheck. cbn [laDir laPre laExt laWidth laPer].
    destruct (Z_lt_dec 0 _); [|lia]. cbn [obind]. rewrite <- !app_assoc. cbn [app xrdI obind].
    destruct (Z_le_dec 0 dir); [|lia]. cbn [obind]. destruct (Z_lt_dec dir 3); [|lia]. cbn [obind].
    rewrite xrdArr_app; [|apply rd1|done|lia]. done.
  - intros [pre ext n c ws ph sh width per] a Hp Hn Hw Hph. cbn [pePre peN peWaves pePhases] in *. unfold periodic_load, periodic_save, rcheck.
    cbn [pePre peExt peN peC peWaves pePhases peShift peWidth pePer]. destruct (Z_lt_dec 0 _); [|lia]. cbn [obind].
    rewrite <- !app_assoc. rewrite xrdArr_app; [|apply rd1|done|lia]. cbn [obind app xrdI xrdD].
    rewrite xrdArr_app; [|apply rdV|lia|lia]. cbn [obind]. rewrite xrdArr_app; [|apply rd1|lia|lia]. cbn [obind].
    rewrite rdV. cbn [obind app xrdI xrdD]. by rewrite Nat2Z.id.
  - intros rMax nr file a Hf Hnr F. cbv zeta. set (x := tab_read rMax nr file).
    assert (Fx : Forall (fun u => length u = nr) (tabPot x)).
    { unfold x, tab_read. cbn [tabPot]. apply Forall_forall. intros u Hu. apply elem_of_list_In, in_map_iff in Hu as (v & <- & Hv).
      rewrite map_length. rewrite Forall_forall in F. apply F. by apply elem_of_list_In. }
    assert (Hl : (0 < length (tabPot x))%nat) by (unfold x, tab_read; cbn [tabPot]; rewrite map_length; done).
    unfold tab_load, tab_save, rcheck. rewrite <- app_assoc. cbn [app xrdI xrdD obind].
    destruct (Z_lt_dec 0 _); [|lia]. cbn [obind]. change (tabNr x) with nr. destruct (Z_lt_dec 0 (Z.of_nat nr)); [|lia]. cbn [obind].
    rewrite !Nat2Z.id.
    assert (E : forall pot, Forall (fun u => length u = nr) pot -> forall a,
                xrds (xrds xrdD nr) (length pot) (concat (map (map XD) pot) ++ a) = Ok (pot, a)).
    { intros pot Fp. induction Fp as [|u pot Hu Fp IH]; intros a'; [done|]. cbn [length map concat xrds]. rewrite <- app_assoc.
      assert (C : forall u a, xrds xrdD (length u) (map XD u ++ a) = Ok (u, a)).
      { clear. intros u. induction u as [|v u IH]; intros a; [done|]. cbn [length map app xrds xrdD obind]. by rewrite IH. }
      rewrite <- Hu at 1. rewrite C. cbn [obind]. rewrite IH. done. }
    rewrite E by done. cbn [obind]. rewrite <- INR_IZR_INZ. done.
  - intros types w a Ht. unfold slit_load. destruct (Z.eq_dec types 0); [done|]. destruct w. done.
  - intros types k w a Ht Hk. unfold orthobox_load, orthobox_save, rcheck. cbn [app xrdI obind].
    destruct (Z_lt_dec 0 types); [|lia]. cbn [obind]. destruct (Z_le_dec 0 k); [|lia]. cbn [obind].
    destruct (Z_le_dec k 3); [|lia]. cbn [obind]. destruct w. done.
Qed.

(** SimplePeriodicExternal, GeneralPeriodicExternal and NucleationExternal do not save the number of waves, so a new
    object (which has none) throws when it loads; BoxExternal reads a number of types that it did not save. *)
Theorem field_archive_refuted :
  (forall x a, (0 < length (siPre x))%nat -> simple_load (Z.of_nat (length (siPre x))) 0 (simple_save x ++ a) = Throw) /\
  (forall x a, (0 < geTypes x)%nat -> general_load 0 (general_save x ++ a) = Throw) /\
  (forall x a, (0 < length (pePre (nuPer x)))%nat ->
     nucleation_load 0 (nucleation_save (Z.of_nat (length (pePre (nuPer x)))) x ++ a) = Throw) /\
  (forall w a, box_load (slit_save w ++ a) = UB).
Proof.
  split; [|split; [|split]].
  - intros x a H. unfold simple_load, simple_save, rcheck. destruct (Z_lt_dec 0 _); [|lia]. cbn [obind]. rewrite <- !app_assoc.
    rewrite xrdArr_app; [|apply rd1|done|lia]. cbn [obind app xrdD]. rewrite xrdArr_zero by lia. done.
  - intros x a H. unfold general_load, general_save, rcheck. rewrite <- !app_assoc. cbn [app xrdI obind].
    destruct (Z_lt_dec 0 _); [|lia]. cbn [obind]. rewrite Z.mul_0_r, xrdArr_zero by lia. done.
  - intros x a H. unfold nucleation_load, nucleation_save, rcheck. rewrite <- !app_assoc. cbn [app xrdI obind].
    destruct (Z_lt_dec 0 _); [|lia]. cbn [obind]. rewrite xrdArr_app; [|apply rd1|done|lia]. cbn [obind app xrdD].
    rewrite xrdArr_zero by lia. done.
  - done.
Qed.
(** An object that already has the right number of waves loads a SimplePeriodicExternal correctly, and no order of
    the remaining parameters of a GeneralPeriodicExternal is right: the external parameter is saved before the waves
    and loaded after them. *)
Theorem general_archive_order_refuted : forall x a, (0 < geTypes x)%nat -> (0 < geN x)%nat ->
  length (gePre x) = (geTypes x * geN x)%nat -> general_load (Z.of_nat (geN x)) (general_save x ++ a) = UB.
Proof.
  intros x a H1 H2 H3. unfold general_load, general_save, rcheck. rewrite <- !app_assoc. cbn [app xrdI obind].
  destruct (Z_lt_dec 0 _); [|lia]. cbn [obind]. rewrite xrdArr_app; [|apply rd1|lia|lia]. cbn [obind].
  unfold xrdArr, rcheck. destruct (Z_lt_dec 0 _); [|lia]. done.
Qed.
Theorem simple_archive_partial : forall x a, (0 < length (siPre x))%nat -> (0 < siN x)%nat -> length (siWaves x) = siN x ->
  simple_load (Z.of_nat (length (siPre x))) (Z.of_nat (siN x)) (simple_save x ++ a) = Ok (x, a).
Proof.
  intros [pre ext n ws width per] a H1 H2 H3. cbn [siPre siN siWaves] in *. unfold simple_load, simple_save, rcheck. cbn [siPre siExt siN siWaves siWidth siPer].
  destruct (Z_lt_dec 0 _); [|lia]. cbn [obind]. rewrite <- !app_assoc.
  rewrite xrdArr_app; [|apply rd1|done|lia]. cbn [obind app xrdD]. rewrite xrdArr_app; [|apply rdZ|lia|lia]. cbn [obind xrdD xrdI].
  by rewrite Nat2Z.id.
Qed.

(** Two waves of which one is shifted: the hypotheses of the theorems on images and archives hold. *)
Definition ex_periodic : periodic := Periodic [1; -1] 2 2 0 [V3 1 0 0; V3 0 2 0] [0; PI / 2] (V3 (1 / 4) 0 0) (1 / 10) 3.
Example field_example : positive3 (V3 10 10 10) /\ length (peWaves ex_periodic) = peN ex_periodic /\
  length (pePhases ex_periodic) = peN ex_periodic /\ Forall int_vec (peWaves ex_periodic) /\
  let x := Lamellar 2 [1; -1] 1 (1 / 10) 4 in ((0 <= laDir x < 3)%Z) /\
  length (gePre (General 2 [1; 2; 3; 4] 1 2 [V3 1 0 0; V3 0 1 0] [0; 0] [0; 0; 0; 0; 0; 0] 1 1)) = (2 * 2)%nat.
Proof.
  split; [unfold positive3; cbn [vx vy vz]; lra|]. split; [done|]. split; [done|]. split; [|split; [cbn; lia|done]].
  repeat constructor; [by exists (V3 1 0 0)%Z|by exists (V3 0 2 0)%Z].
Qed.
(** A periodic field with a constant, and a table with spacing 1. *)
Example field_constant_example : nth 0 (pePre (Periodic [1] 1 0 1 [] [] (V3 0 0 0) 1 1)) 0 * 1 <> 0 /\ 2 * PI * 1 * 1 <> 1 /\ 2 * PI * 1 * 1 <> 0.
Proof. cbn [pePre nth]. pose proof PI2_3_2. pose proof PI_4. unfold PI in *. repeat split; lra. Qed.
Example tab_example : tabDr (tab_read 2 3 [[4; 2; 0]]) = 1 /\
  between_nodes (tab_read 2 3 [[4; 2; 0]]) (V3 8 8 8) (V3 (4 + 1 / 4) 4 4) 0 /\ 0 < centre_dist (V3 8 8 8) (V3 (4 + 1 / 4) 4 4).
Proof.
  assert (D : centre_dist (V3 8 8 8) (V3 (4 + 1 / 4) 4 4) = 1 / 4).
  { unfold centre_dist, normSq, vdot, vsub, vscale. cbn [vx vy vz]. replace (_ + _ + _) with ((1 / 4) * (1 / 4)) by field. apply sqrt_square. lra. }
  assert (E : tabDr (tab_read 2 3 [[4; 2; 0]]) = 1) by (unfold tab_read; cbn [tabDr INR]; field).
  split; [done|]. unfold between_nodes. rewrite D, E. cbn [vx vy vz INR]. split; [|lra].
  repeat split; try lra. simpl. lia.
Qed.

Print Assumptions periodic_fields_conservative.
Print Assumptions periodic_fields_documented.
Print Assumptions periodic_constant_refuted.
Print Assumptions periodic_fields_images.
Print Assumptions periodic_images_refuted.
Print Assumptions periodic_fields_bounded.
Print Assumptions nucleation_force_partial.
Print Assumptions nucleation_force_flat_partial.
Print Assumptions nucleation_force_refuted.
Print Assumptions tab_force_partial.
Print Assumptions tab_force_refuted.
Print Assumptions field_archive_partial.
Print Assumptions field_archive_refuted.
Print Assumptions general_archive_order_refuted.
Print Assumptions simple_archive_partial.
