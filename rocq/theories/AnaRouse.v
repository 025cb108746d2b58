(** Sums of weights of Rouse modes, and displacements followed across faces. *)
From stdpp Require Import relations gmap.
From Verif Require Import Base Vec3 BoxSpec OrthoModel OrthoSpec OrthoProofs OrthoProps SpeciesModel SpeciesProofs.
From Verif Require Import EnergyModel EnergySpec EnergyProofs MdModel MdSpec ClusterModel ClusterSpec ClusterComModel ClusterComSpec ClusterComProofs AnaModel AnaSpec AnaProofs.
From Coq Require Import Reals Lra.
Local Open Scope R_scope.

Lemma sum_snoc (f : nat -> R) k : sum_over (seq 0 (S k)) f = sum_over (seq 0 k) f + f k.
Proof.
  rewrite seq_S. unfold sum_over. rewrite map_app. cbn [map Nat.add]. induction (map f (seq 0 k)) as [|x l IH]; cbn [app Rsum]; [lra|]. rewrite IH. lra.
Qed.
Lemma cos_sum t k : 2 * sin (t / 2) * sum_over (seq 0 k) (fun j => cos (t * INR j)) = sin (INR k * t - t / 2) + sin (t / 2).
Proof.
  induction k as [|k IH].
  - unfold sum_over. cbn [seq map Rsum]. change (INR 0) with 0. rewrite Rmult_0_r, Rmult_0_l. replace (0 - t / 2) with (- (t / 2)) by lra. rewrite sin_neg. lra.
  - rewrite sum_snoc, Rmult_plus_distr_l, IH. rewrite S_INR. replace ((INR k + 1) * t - t / 2) with (INR k * t + t / 2) by lra.
    rewrite sin_plus, sin_minus. rewrite (Rmult_comm t (INR k)). lra.
Qed.
Lemma sin_sum t k : 2 * sin (t / 2) * sum_over (seq 0 k) (fun j => sin (t * INR j)) = cos (t / 2) - cos (INR k * t - t / 2).
Proof.
  induction k as [|k IH].
  - unfold sum_over. cbn [seq map Rsum]. change (INR 0) with 0. rewrite Rmult_0_r, Rmult_0_l. replace (0 - t / 2) with (- (t / 2)) by lra. rewrite cos_neg. lra.
  - rewrite sum_snoc, Rmult_plus_distr_l, IH. rewrite S_INR. replace ((INR k + 1) * t - t / 2) with (INR k * t + t / 2) by lra.
    rewrite cos_plus, cos_minus. rewrite (Rmult_comm t (INR k)). lra.
Qed.
Lemma sin_even (k : nat) x : sin (INR (2 * k) * PI + x) = sin x.
Proof. rewrite mult_INR. change (INR 2) with (1 + 1). rewrite <- (sin_period x k). f_equal. lra. Qed.
Lemma cos_even (k : nat) x : cos (INR (2 * k) * PI + x) = cos x.
Proof. rewrite mult_INR. change (INR 2) with (1 + 1). rewrite <- (cos_period x k). f_equal. lra. Qed.
Lemma sin_odd (k : nat) x : sin (INR (2 * k + 1) * PI + x) = - sin x.
Proof. rewrite plus_INR. change (INR 1) with 1. rewrite <- neg_sin. replace ((INR (2 * k) + 1) * PI + x) with (INR (2 * k) * PI + (x + PI)) by lra. apply sin_even. Qed.
Lemma cos_odd (k : nat) : cos (INR (2 * k + 1) * PI) = - 1.
Proof. rewrite plus_INR. change (INR 1) with 1. replace ((INR (2 * k) + 1) * PI) with (INR (2 * k) * PI + PI) by lra. rewrite cos_even. apply cos_PI. Qed.
Lemma sin_ne0 (a c : nat) : (0 < a)%nat -> (a < c)%nat -> sin (PI * INR a / INR c) <> 0.
Proof.
  intros Ha Hc. assert (0 < INR a) by (by apply lt_0_INR). assert (INR a < INR c) by (by apply lt_INR). pose proof PI_RGT_0 as HP.
  assert (0 < PI * INR a / INR c < PI) as [H1 H2].
  { split; [apply Rmult_lt_0_compat; [nra|apply Rinv_0_lt_compat; lra]|]. apply (Rmult_lt_reg_r (INR c)); [lra|]. unfold Rdiv. rewrite Rmult_assoc, Rinv_l by lra. nra. }
  pose proof (sin_gt_0 _ H1 H2). lra.
Qed.

(** The sum of the weights of a mode of a linear molecule without those subtracted at the ends. *)
Lemma linear_cos_sum n p : (2 <= n)%nat -> (0 < p < n)%nat ->
  sum_over (seq 0 n) (fun j => cos (PI * INR p / INR (n - 1) * INR j)) = if Nat.even p then 1 else 0.
Proof.
  intros Hn Hp. set (t := PI * INR p / INR (n - 1)). pose proof (cos_sum t n) as H.
  assert (0 < INR (n - 1)) as Hn1 by (apply lt_0_INR; lia).
  assert (Ht2 : t / 2 = PI * INR p / INR (2 * (n - 1))) by (unfold t; rewrite mult_INR; change (INR 2) with 2; field; lra).
  assert (S0 : sin (t / 2) <> 0) by (rewrite Ht2; apply sin_ne0; lia).
  assert (En : INR n * t - t / 2 = INR p * PI + t / 2).
  { replace (INR n) with (INR (n - 1) + 1) by (rewrite <- S_INR; f_equal; lia). unfold t. field. lra. }
  rewrite En in H. apply (Rmult_eq_reg_l (2 * sin (t / 2))); [|lra]. rewrite H. destruct (Nat.even p) eqn:Ep.
  - apply Nat.even_spec in Ep as (k & ->). rewrite sin_even. lra.
  - assert (Nat.odd p = true) as Eo by (by rewrite <- Nat.negb_even, Ep). apply Nat.odd_spec in Eo as (k & ->). rewrite sin_odd. lra.
Qed.
Lemma sum_scale (l : list nat) c (f : nat -> R) : sum_over l (fun j => c * f j) = c * sum_over l f.
Proof. apply sum_mul_const. Qed.
Lemma sum_end (n k : nat) (f : nat -> R) x : (k < n)%nat -> sum_over (seq 0 n) (fun j => if decide (j = k) then f j - x else f j) = sum_over (seq 0 n) f - x.
Proof.
  induction n as [|n IH]; intros Hk; [lia|]. rewrite !sum_snoc. destruct (decide (n = k)) as [->|Hne].
  - rewrite (sum_ext_in (seq 0 k) _ f); [lra|]. intros j Hj. apply elem_of_list_In, in_seq in Hj. rewrite decide_False by lia. done.
  - rewrite IH by lia. lra.
Qed.
Lemma linear_sum n p : (2 <= n)%nat -> (0 < p < n)%nat -> sum_over (seq 0 n) (linear_projector n p) = if Nat.even p then 0 else - (1 / INR n).
Proof.
  intros Hn Hp. assert (0 < INR n) as HnR by (apply lt_0_INR; lia). unfold linear_projector. cbv zeta.
  rewrite (sum_end n (n - 1) (fun j => if decide (j = 0)%nat then (match p with O => 1 / INR n | _ => 1 / INR n * cos (PI * INR p / INR (n - 1) * INR j) end) - 1/2 / INR n else match p with O => 1 / INR n | _ => 1 / INR n * cos (PI * INR p / INR (n - 1) * INR j) end)) by lia.
  rewrite (sum_end n 0 (fun j => match p with O => 1 / INR n | _ => 1 / INR n * cos (PI * INR p / INR (n - 1) * INR j) end)) by lia.
  rewrite (sum_ext_in _ _ (fun j => 1 / INR n * cos (PI * INR p / INR (n - 1) * INR j))) by (intros j _; destruct p; [lia|done]).
  rewrite sum_scale, linear_cos_sum by lia. destruct (Nat.even p); field; lra.
Qed.
Lemma ring_sum n p : (0 < p < n)%nat -> sum_over (seq 0 n) (ring_projector n p) = 0.
Proof.
  intros Hp. assert (0 < INR n) as HnR by (apply lt_0_INR; lia).
  assert (G : forall q, (0 < q < n)%nat -> let t := 2 * PI * INR q / INR n in sin (t / 2) <> 0 /\ INR n * t - t / 2 = INR (2 * q) * PI + - (t / 2)).
  { intros q Hq t. split.
    - assert (t / 2 = PI * INR q / INR n) as -> by (unfold t; field; lra). apply sin_ne0; lia.
    - rewrite mult_INR. change (INR 2) with 2. unfold t. field. lra. }
  destruct p as [|p']; [lia|]. set (p := S p') in *. unfold ring_projector. fold p. change (match p with O => 1 / INR n | S _ => ?x end) with x.
  destruct (Nat.even p) eqn:Ep.
  - apply Nat.even_spec in Ep as (k & Ek). assert (p / 2 = k)%nat as -> by (rewrite Ek, Nat.mul_comm; apply Nat.div_mul; lia).
    destruct (G k ltac:(lia)) as [G1 G2]. rewrite sum_scale. set (t := 2 * PI * INR k / INR n) in *. pose proof (cos_sum t n) as H. rewrite G2, sin_even, sin_neg in H.
    assert (sum_over (seq 0 n) (fun j => cos (t * INR j)) = 0) as ->; [|lra]. apply (Rmult_eq_reg_l (2 * sin (t / 2))); [|lra]. rewrite H. lra.
  - assert (Nat.odd p = true) as Eo by (by rewrite <- Nat.negb_even, Ep). apply Nat.odd_spec in Eo as (k & Ek).
    assert ((p + 1) / 2 = k + 1)%nat as -> by (rewrite Ek; replace (2 * k + 1 + 1)%nat with ((k + 1) * 2)%nat by lia; apply Nat.div_mul; lia).
    destruct (G (k + 1)%nat ltac:(lia)) as [G1 G2]. rewrite sum_scale. set (t := 2 * PI * INR (k + 1) / INR n) in *. pose proof (sin_sum t n) as H. rewrite G2, cos_even, cos_neg in H.
    assert (sum_over (seq 0 n) (fun j => sin (t * INR j)) = 0) as ->; [|lra]. apply (Rmult_eq_reg_l (2 * sin (t / 2))); [|lra]. rewrite H. lra.
Qed.

Lemma sum_shift (n : nat) (f : nat -> R) : sum_over (seq 0 (S n)) f = f 0%nat + sum_over (seq 0 n) (fun j => f (S j)).
Proof. cbn [seq]. unfold sum_over. cbn [map Rsum]. f_equal. f_equal. rewrite <- seq_shift, map_map. done. Qed.
Lemma weighted_cons (w : nat -> R) a mol (u : nat -> vec3 R) : weighted w (a :: mol) u = vadd (vscale (w 0%nat) (u a)) (weighted (fun j => w (S j)) mol u).
Proof. unfold weighted. cbn [length]. unfold vsum_over, vadd, vscale. cbn [vx vy vz]. by rewrite !sum_shift. Qed.
Lemma rouse_fold (f : nat -> vec3 R) : forall mol (w : nat -> R) s k,
  fold_left (fun s p => (vadd (fst s) (vscale (w (snd s)) (snd p)), S (snd s))) (map (fun x => (x, f x)) mol) (s, k)
  = (vadd s (weighted (fun j => w (k + j)%nat) mol f), (k + length mol)%nat).
Proof.
  induction mol as [|a mol IH]; intros w s k; cbn [map fold_left fst snd].
  - f_equal; [|cbn; lia]. destruct s as [s1 s2 s3]. unfold weighted, vsum_over, sum_over, vadd. cbn. f_equal; lra.
  - rewrite IH, weighted_cons. f_equal; [|cbn; lia]. rewrite Nat.add_0_r. 
    assert (E : weighted (fun j => w (S k + j)%nat) mol f = weighted (fun j => w (k + S j)%nat) mol f).
    { unfold weighted, vsum_over. assert (forall j, (S k + j = k + S j)%nat) as E by lia. f_equal; apply sum_ext_in; intros j _; by rewrite E. }
    rewrite E. unfold vadd. cbn [vx vy vz]. f_equal; ring.
Qed.
Lemma weighted_plus (w : nat -> R) mol c (u : nat -> vec3 R) :
  weighted w mol (fun x => vadd c (u x)) = vadd (vscale (sum_over (seq 0 (length mol)) w) c) (weighted w mol u).
Proof.
  revert w. induction mol as [|a mol IH]; intros w.
  - unfold weighted, vsum_over, sum_over, vadd, vscale. cbn. f_equal; ring.
  - rewrite !weighted_cons, IH. cbn [length]. rewrite sum_shift. unfold vadd, vscale. cbn [vx vy vz]. f_equal; ring.
Qed.
Lemma weighted_ext (w w' : nat -> R) mol (u u' : nat -> vec3 R) : (forall j, (j < length mol)%nat -> w j = w' j) -> (forall a, a ∈ mol -> u a = u' a) -> weighted w mol u = weighted w' mol u'.
Proof.
  intros H1 H2. unfold weighted, vsum_over. f_equal; apply sum_ext_in; intros j Hj; apply elem_of_list_In, in_seq in Hj; rewrite H1 by lia; rewrite H2; try done;
    apply elem_of_list_In, nth_In; lia.
Qed.
Lemma rouse_spec b pos u proj a mol : a_box b -> contiguous b pos u (a :: mol) ->
  rouse_data (fun r1 r2 => (distanceSq_dr b r1 r2).2) pos proj (a :: mol) =
  Ok (vadd (vscale (sum_over (seq 0 (length (a :: mol))) proj) (vsub (pos a) (u a))) (weighted proj (a :: mol) u)).
Proof.
  intros Hb HC. unfold rouse_data. rewrite (fore_walk_spec b Hb pos u) by done. cbn [obind]. rewrite rouse_fold. cbn [fst]. f_equal.
  rewrite <- weighted_plus.
  change (fun j => proj (0 + j)%nat) with (fun j => proj j). change (weighted (fun j => proj j)) with (weighted proj).
  unfold vadd at 1. cbn [vx vy vz]. rewrite !Rplus_0_l. by destruct (weighted proj (a :: mol) _).
Qed.
