(** Lemmas about Fourier modes. *)
From Coq Require Import Reals Lra.
From Coquelicot Require Import Coquelicot.
From stdpp Require Import relations gmap.
From Verif Require Import Base Vec3 BoxSpec OrthoModel OrthoSpec MonoModel MonoSpec EnergyModel EnergySpec EnergyProofs MdModel MdSpec EwaldModel EwaldSpec EwaldProofs SfModel SfSpec.
From Coq Require Import Reals Lra.
Local Open Scope R_scope.

Lemma makeWave_eq kb n : makeWave kb n = wavevector kb n.
Proof.
  unfold makeWave, wavevector, lattice_vector. destruct n as [n0 n1 n2], (kRecip kb) as [b0 b1 b2]. cbn [fold_left vget vx vy vz]. unfold combo, vadd, vscale, vmap. cbn [vx vy vz]. f_equal; ring.
Qed.
Lemma mode_eq c pos q atoms : fourier_mode c pos q atoms = (sum_over atoms (fun a => c a * cos (vdot (pos a) q)), sum_over atoms (fun a => c a * sin (vdot (pos a) q))).
Proof.
  unfold fourier_mode. assert (G : forall m, fold_left (fun m a => let x := vdot (pos a) q in (fst m + c a * cos x, snd m + c a * sin x)) atoms m =
    (fst m + sum_over atoms (fun a => c a * cos (vdot (pos a) q)), snd m + sum_over atoms (fun a => c a * sin (vdot (pos a) q)))).
  { induction atoms as [|a atoms IH]; intros [x y]; cbn [fold_left]; [unfold sum_over; cbn; f_equal; lra|]. rewrite IH. cbn [fst snd]. rewrite !sum_cons. f_equal; lra. }
  rewrite G. cbn [fst snd]. f_equal; lra.
Qed.
Lemma sum_prod (A B : list nat) (f g : nat -> R) : sum_over A f * sum_over B g = sum_over A (fun a => sum_over B (fun b => f a * g b)).
Proof.
  induction A as [|a A IH]; [rewrite !sum_nil; lra|]. rewrite !sum_cons, <- IH, Rmult_plus_distr_r. f_equal. clear IH.
  induction B as [|b B IHB]; [rewrite !sum_nil; lra|]. rewrite !sum_cons, <- IHB. lra.
Qed.
Lemma mode_product (c d : nat -> R) (pos : nat -> vec3 R) q A B :
  sum_over A (fun a => c a * cos (vdot (pos a) q)) * sum_over B (fun a => d a * cos (vdot (pos a) q)) +
  sum_over A (fun a => c a * sin (vdot (pos a) q)) * sum_over B (fun a => d a * sin (vdot (pos a) q)) =
  sum_over A (fun a => sum_over B (fun b => c a * d b * cos (vdot q (vsub (pos a) (pos b))))).
Proof.
  rewrite !sum_prod, <- EnergyProofs.sum_plus. apply sum_ext. intros a _. rewrite <- EnergyProofs.sum_plus. apply sum_ext. intros b _.
  assert (vdot q (vsub (pos a) (pos b)) = vdot (pos a) q - vdot (pos b) q) as -> by (unfold vdot, vsub; cbn [vx vy vz]; ring).
  rewrite cos_minus. ring.
Qed.
(** The wave does not see a lattice vector. *)
Lemma wave_lattice kb n m : ewald_box kb -> exists k : Z, vdot (wavevector kb n) (lattice_vector (kBrav kb) m) = 2 * PI * IZR k.
Proof.
  intros HB. pose proof (ewald_dual kb HB) as D. exists (vx n * vx m + vy n * vy m + vz n * vz m)%Z. unfold lattice_vector. rewrite dot_combo.
  rewrite !(vdot_comm (wavevector kb n)). pose proof (dual_index kb D n 0 ltac:(lia)) as E0. pose proof (dual_index kb D n 1 ltac:(lia)) as E1. pose proof (dual_index kb D n 2 ltac:(lia)) as E2.
  cbn [vget] in E0, E1, E2. rewrite E0, E1, E2, !plus_IZR, !mult_IZR. destruct n as [n1 n2 n3], m as [m1 m2 m3]. unfold vmap. cbn [vx vy vz]. ring.
Qed.
Lemma cos_turns x (k : Z) : cos (x + 2 * PI * IZR k) = cos x.
Proof.
  destruct (Z.le_gt_cases 0 k).
  - rewrite <- (Z2Nat.id k), <- INR_IZR_INZ by done. rewrite <- (cos_period x (Z.to_nat k)). f_equal. ring.
  - rewrite <- (cos_period (x + 2 * PI * IZR k) (Z.to_nat (- k))). f_equal. rewrite INR_IZR_INZ, Z2Nat.id, opp_IZR by lia. ring.
Qed.
