(** The k-space forces as a gradient, and the k-space stress as the derivative with respect to a deformation of the cell. *)
From Coq Require Import Reals Lra.
From Coquelicot Require Import Coquelicot.
From stdpp Require Import gmap.
From Verif Require Import Base Vec3 BoxSpec OrthoModel OrthoSpec OrthoProofs OrthoProps MonoModel MonoSpec MonoProofs MonoProps.
From Verif Require Import SpeciesModel PairListModel EnergyModel EnergySpec EnergyProofs MdModel MdSpec MdProofs GradSpec MdGradSpec MdGradProofs Deriv.
From Verif Require Import EwaldModel EwaldSpec EwaldProofs EwaldForces.
From Coq Require Import Reals Lra.
Local Open Scope R_scope.

(** * All waves and half of them *)
Lemma waves_perm e kb kc w L : dual_box kb -> waves_of e kb kc w -> all_waves kb kc L -> L ≡ₚ wInt w ++ map vneg (wInt w).
Proof.
  intros D W [HL HI]. assert (IN : forall n, n ∈ map vneg (wInt w) <-> vneg n ∈ wInt w).
  { intros n. rewrite elem_of_list_In, in_map_iff. split.
    - intros (m & <- & Hm). rewrite vneg_vneg. by apply elem_of_list_In.
    - intros Hn. exists (vneg n). split; [apply vneg_vneg|by apply elem_of_list_In]. }
  apply NoDup_Permutation; [done| |].
  - apply NoDup_app. split; [apply W|]. split.
    + intros n H1 H2. apply IN in H2. apply (wo_in _ _ _ _ W) in H1 as [H1 _]. apply (wo_in _ _ _ _ W) in H2 as [H2 _]. by apply (half_not n).
    + change (NoDup (vneg <$> wInt w)). apply NoDup_fmap; [|apply W]. intros x y E. rewrite <- (vneg_vneg x), E. apply vneg_vneg.
  - intros n. rewrite HI, elem_of_app, IN, !(wo_in _ _ _ _ W), normSq_neg. unfold in_cutoff. split.
    + intros [H1 H2]. destruct (half_or n H1); tauto.
    + intros [[H1 H2]|[H1 H2]]; (split; [|done]); [by apply half_ne|].
      intros ->. apply half_ne in H1. by apply H1.
Qed.
Lemma waves_sum e kb kc w L f : dual_box kb -> waves_of e kb kc w -> all_waves kb kc L -> (forall n, f (vneg n) = f n) ->
  sum_over L f = 2 * sum_over (wInt w) f.
Proof.
  intros D W HL Hf. rewrite (sum_perm _ _ _ (waves_perm _ _ _ _ _ D W HL)), sum_app, sum_map.
  rewrite (sum_ext (fun n => f (vneg n)) f) by (intros; apply Hf). ring.
Qed.
Lemma all_waves_ex e kb kc w : dual_box kb -> waves_of e kb kc w -> all_waves kb kc (wInt w ++ map vneg (wInt w)).
Proof.
  intros D W. assert (IN : forall n, n ∈ map vneg (wInt w) <-> vneg n ∈ wInt w).
  { intros n. rewrite elem_of_list_In, in_map_iff. split.
    - intros (m & <- & Hm). rewrite vneg_vneg. by apply elem_of_list_In.
    - intros Hn. exists (vneg n). split; [apply vneg_vneg|by apply elem_of_list_In]. }
  split.
  - apply NoDup_app. split; [apply W|]. split.
    + intros n H1 H2. apply IN in H2. apply (wo_in _ _ _ _ W) in H1 as [H1 _]. apply (wo_in _ _ _ _ W) in H2 as [H2 _]. by apply (half_not n).
    + change (NoDup (vneg <$> wInt w)). apply NoDup_fmap; [|apply W]. intros x y E. rewrite <- (vneg_vneg x), E. apply vneg_vneg.
  - intros n. rewrite elem_of_app, IN, !(wo_in _ _ _ _ W), normSq_neg. unfold in_cutoff. split.
    + intros [[H1 H2]|[H1 H2]]; (split; [|done]); [by apply half_ne|]. intros ->. apply half_ne in H1. by apply H1.
    + intros [H1 H2]. destruct (half_or n H1); tauto.
Qed.

Lemma density2_neg atoms charge pos k : density2 atoms charge pos (vscale (-1) k) = density2 atoms charge pos k.
Proof.
  unfold density2. assert (E : forall r, vdot (vscale (-1) k) r = - vdot k r) by (intros; unfold vdot, vscale; cbn [vx vy vz]; ring).
  rewrite (sum_ext (fun a => charge a * cos (vdot (vscale (-1) k) (pos a))) (fun a => charge a * cos (vdot k (pos a)))) by (intros; by rewrite E, cos_neg).
  rewrite (sum_ext (fun a => charge a * sin (vdot (vscale (-1) k) (pos a))) (fun a => -1 * (charge a * sin (vdot k (pos a))))) by (intros; rewrite E, sin_neg; ring).
  rewrite sum_scale. ring.
Qed.

(** The interaction whose parameters are [eps] and [alpha]. *)
Record ewald_ok (e : ewald) : Prop := {
  ok_eps : eEps e <> 0;  ok_alpha : 0 < eAlpha e;
  ok_rcsq : eRcSq e = eRc e * eRc e;  ok_ce : eCe e = 1 / (4 * PI * eEps e);  ok_cf : eCf e = 2 * eAlpha e / sqrt PI;
  ok_cg : eCg e = - (1/4) / (eAlpha e * eAlpha e)
}.
Lemma kpot_influence e x : ewald_ok e -> kSpacePotential e x = influence (eEps e) (eAlpha e) x.
Proof.
  intros O. unfold kSpacePotential, influence. rewrite (ok_cg _ O). pose proof (ok_alpha _ O).
  replace (- (1/4) / (eAlpha e * eAlpha e) * x) with (- x / (4 * eAlpha e ^ 2)) by (field; lra). f_equal. ring.
Qed.

Lemma kdiv_2 V s : V <> 0 -> / (2 * V) * (2 * s) = s / V. Proof. intros. field. done. Qed.

Lemma energy_full e kb kc w L atoms charge pos : ewald_ok e -> dual_box kb -> waves_of e kb kc w -> all_waves kb kc L ->
  computeEnergy e kb atoms charge w pos = Ok (kspace_energy (eEps e) (eAlpha e) kb L atoms charge pos).
Proof.
  intros O D W HL. rewrite (energy_eq _ _ _ _ D W). f_equal. unfold kspace_energy.
  rewrite (waves_sum e kb kc w L); [|done..|].
  2:{ intros n. by rewrite normSq_neg, wavevector_neg, density2_neg. }
  pose proof (db_pos _ D). rewrite kdiv_2 by lra.
  rewrite (sum_ext (fun n => kSpacePotential e _ * _) (fun n => influence (eEps e) (eAlpha e) (normSq (wavevector kb n)) * density2 atoms charge pos (wavevector kb n)))
    by (intros; by rewrite kpot_influence).
  rewrite (sum_ext (fun a => charge a * charge a) (fun a => charge a ^ 2)) by (intros; ring).
  pose proof PI_RGT_0. pose proof (sqrt_lt_R0 PI ltac:(done)). pose proof (ok_eps _ O). f_equal. field. lra.
Qed.

(** * Gradient *)
Lemma derive_mode (f df : R -> R) (l : list nat) (charge : nat -> R) pos ed k :
  (forall x, is_derive f x (df x)) ->
  is_derive (fun t => sum_over l (fun a => charge a * f (vdot k (displaced pos ed t a)))) 0
    (sum_over l (fun a => charge a * (df (vdot k (pos a)) * vdot k (ed a)))).
Proof.
  intros Hf. apply (derive_sum (fun a t => charge a * f (vdot k (displaced pos ed t a)))). intros a _.
  apply (is_derive_ext (fun t => charge a * f (vdot k (pos a) + t * vdot k (ed a)))).
  { intros t. do 2 f_equal. unfold displaced, GradSpec.move, vdot, vadd, vscale. cbn [vx vy vz]. ring. }
  set (u := vdot k (pos a)). set (v := vdot k (ed a)).
  assert (H1 : is_derive (fun t => u + t * v) 0 v) by (auto_derive; [done|ring]).
  assert (H2 : is_derive f (u + 0 * v) (df u)) by (replace (u + 0 * v) with u by ring; apply Hf).
  pose proof (is_derive_comp (V := R_NormedModule) f (fun t => u + t * v) 0 (df u) v H2 H1) as H3.
  apply (is_derive_scal (fun t => f (u + t * v)) 0 (charge a) (scal v (df u))) in H3.
  eapply is_derive_eq; [exact H3|]. change (charge a * (v * df u) = charge a * (df u * v)). ring.
Qed.
Lemma derive_density l charge pos ed k :
  is_derive (fun t => density2 l charge (displaced pos ed t) k) 0
    (sum_over l (fun a => 2 * charge a * (cos (vdot k (pos a)) * smode l charge pos k - sin (vdot k (pos a)) * cmode l charge pos k) * vdot k (ed a))).
Proof.
  unfold density2.
  pose proof (derive_mode cos (fun x => - sin x) l charge pos ed k (fun x => is_derive_cos x)) as HC.
  pose proof (derive_mode sin cos l charge pos ed k (fun x => is_derive_sin x)) as HS.
  assert (P0 : forall a, displaced pos ed 0 a = pos a).
  { intros a. unfold displaced, GradSpec.move, vadd, vscale. destruct (pos a) as [x y z]. cbn [vx vy vz]. f_equal; ring. }
  assert (C0 : sum_over l (fun a => charge a * cos (vdot k (displaced pos ed 0 a))) = cmode l charge pos k) by (apply sum_ext; intros; by rewrite P0).
  assert (S0 : sum_over l (fun a => charge a * sin (vdot k (displaced pos ed 0 a))) = smode l charge pos k) by (apply sum_ext; intros; by rewrite P0).
  pose proof (is_derive_pow _ 2 _ _ HC) as HC2. pose proof (is_derive_pow _ 2 _ _ HS) as HS2. cbv beta in HC2, HS2. rewrite C0 in HC2. rewrite S0 in HS2.
  eapply is_derive_eq; [apply (is_derive_plus (V := R_NormedModule)); [exact HC2|exact HS2]|].
  unfold plus; simpl. change (1 + 1)%nat with 2%nat. rewrite !Rmult_1_r.
  rewrite (Rmult_comm _ (cmode l charge pos k)), (Rmult_comm _ (smode l charge pos k)).
  rewrite <- !sum_scale, <- EnergyProofs.sum_plus. apply sum_ext. intros a _. ring.
Qed.

Lemma vsum_scale {A} (l : list A) c f : vsum_over l (fun x => vscale c (f x)) = vscale c (vsum_over l f).
Proof. unfold vsum_over, vscale. cbn [vx vy vz]. by rewrite !sum_scale. Qed.

Lemma kspace_gradient e kb kc w L atoms charge pos ed : ewald_ok e -> dual_box kb -> waves_of e kb kc w -> all_waves kb kc L ->
  is_derive (fun t => kspace_energy (eEps e) (eAlpha e) kb L atoms charge (displaced pos ed t)) 0
    (- work atoms (kf e kb w atoms charge pos) ed).
Proof.
  intros O D W HL. unfold kspace_energy.
  assert (HD : is_derive (fun t => sum_over L (fun n => influence (eEps e) (eAlpha e) (normSq (wavevector kb n)) * density2 atoms charge (displaced pos ed t) (wavevector kb n))) 0
    (sum_over L (fun n => influence (eEps e) (eAlpha e) (normSq (wavevector kb n)) * (let k := wavevector kb n in
      sum_over atoms (fun a => 2 * charge a * (cos (vdot k (pos a)) * smode atoms charge pos k - sin (vdot k (pos a)) * cmode atoms charge pos k) * vdot k (ed a)))))).
  { apply (derive_sum (fun n t => influence (eEps e) (eAlpha e) (normSq (wavevector kb n)) * density2 atoms charge (displaced pos ed t) (wavevector kb n))). intros n _.
    apply is_derive_scal. apply derive_density. }
  eapply is_derive_eq.
  { apply (is_derive_minus (V := R_NormedModule)); [apply is_derive_scal; exact HD|apply (is_derive_const (V := R_NormedModule))]. }
  cbv zeta. match goal with |- Hierarchy.minus ?x _ = ?y => change (x - 0 = y); rewrite Rminus_0_r end.
  rewrite (waves_sum e kb kc w L); [|done..|].
  2:{ intros n. rewrite normSq_neg, wavevector_neg. f_equal.
      assert (E : forall r, vdot (vscale (-1) (wavevector kb n)) r = - vdot (wavevector kb n) r) by (intros; unfold vdot, vscale; cbn [vx vy vz]; ring).
      assert (EC : cmode atoms charge pos (vscale (-1) (wavevector kb n)) = cmode atoms charge pos (wavevector kb n)) by (apply sum_ext; intros; by rewrite E, cos_neg).
      assert (ES : smode atoms charge pos (vscale (-1) (wavevector kb n)) = - smode atoms charge pos (wavevector kb n)).
      { replace (- smode atoms charge pos (wavevector kb n)) with (-1 * smode atoms charge pos (wavevector kb n)) by ring. unfold smode. rewrite <- sum_scale. apply sum_ext. intros. rewrite E, sin_neg. ring. }
      apply sum_ext. intros a _. rewrite !E, EC, ES, cos_neg, sin_neg. ring. }
  pose proof (db_pos _ D). rewrite kdiv_2 by lra. unfold work.
  rewrite (sum_ext (fun a => vdot (kf e kb w atoms charge pos a) (ed a)) (fun a => sum_over (wInt w) (fun n =>
    - (/ kVol kb) * (influence (eEps e) (eAlpha e) (normSq (wavevector kb n)) *
      (2 * charge a * (cos (vdot (wavevector kb n) (pos a)) * smode atoms charge pos (wavevector kb n) - sin (vdot (wavevector kb n) (pos a)) * cmode atoms charge pos (wavevector kb n)) * vdot (wavevector kb n) (ed a)))))).
  2:{ intros a _. unfold kf. rewrite vdot_scale_l, vdot_sum_l, <- sum_scale. apply sum_ext. intros n _. rewrite vdot_scale_l, kpot_influence by done. unfold Rdiv. ring. }
  rewrite sum_swap. unfold Rdiv. rewrite Rmult_comm.
  rewrite <- sum_scale. match goal with |- _ = - ?x => replace (- x) with (-1 * x) by ring end. rewrite <- sum_scale.
  apply sum_ext. intros n _. rewrite <- !sum_scale. apply sum_ext. intros a _. ring.
Qed.

(** The k-space forces on all atoms add up to zero. *)
Lemma kspace_momentum e kb kc w atoms charge pos : dual_box kb -> waves_of e kb kc w ->
  vsum_over atoms (kf e kb w atoms charge pos) = V3 0 0 0.
Proof.
  intros D W. assert (H : forall i, (i < 3)%nat -> vget (vsum_over atoms (kf e kb w atoms charge pos)) i = 0).
  { intros i Hi. rewrite vget_sum. set (g n := kSpacePotential e (normSq (wavevector kb n))).
    rewrite (sum_ext _ (fun a => sum_over (wInt w) (fun n => - (2 / kVol kb) * g n * vget (wavevector kb n) i *
      (smode atoms charge pos (wavevector kb n) * (charge a * cos (vdot (wavevector kb n) (pos a))) + - cmode atoms charge pos (wavevector kb n) * (charge a * sin (vdot (wavevector kb n) (pos a))))))).
    2:{ intros a _. unfold kf. assert (SC : forall c v, vget (vscale c v) i = c * vget v i) by (intros; destruct i as [|[|]]; done).
        rewrite SC, vget_sum, <- sum_scale. apply sum_ext. intros n _. rewrite SC. unfold g, Rdiv. ring. }
    rewrite sum_swap. apply sum_0. intros n _. rewrite sum_scale, EnergyProofs.sum_plus, !sum_scale.
    fold (cmode atoms charge pos (wavevector kb n)). fold (smode atoms charge pos (wavevector kb n)). ring. }
  apply vec3_ext. intros i Hi. rewrite H by done. by destruct i as [|[|]].
Qed.
