(** Proofs about external fields. *)
From Coq Require Import Reals Lra.
From Coquelicot Require Import Coquelicot.
From Verif Require Import Base Vec3 BoxSpec GradSpec OrthoModel FieldModel FieldSpec.
From Coq Require Import Reals Lra.
Local Open Scope R_scope.

Lemma cosh_pos x : 0 < cosh x.
Proof. unfold cosh. pose proof (exp_pos x). pose proof (exp_pos (- x)). lra. Qed.
Lemma tanh_derive x : is_derive tanh x (1 - tanh x * tanh x).
Proof.
  assert (D1 : is_derive sinh x (cosh x)) by (apply is_derive_Reals, derivable_pt_lim_sinh).
  assert (D2 : is_derive cosh x (sinh x)) by (apply is_derive_Reals, derivable_pt_lim_cosh).
  pose proof (cosh_pos x) as P.
  evar_last.
  - apply (is_derive_div sinh cosh x (cosh x) (sinh x)); [exact D1|exact D2|lra].
  - unfold tanh. field. lra.
Qed.
Lemma tanh_bound x : -1 < tanh x < 1.
Proof.
  unfold tanh. pose proof (cosh_pos x) as P. unfold sinh, cosh in *. pose proof (exp_pos x). pose proof (exp_pos (- x)).
  split.
  - apply Rmult_lt_reg_r with ((exp x + exp (- x)) / 2); [lra|]. field_simplify; lra.
  - apply Rmult_lt_reg_r with ((exp x + exp (- x)) / 2); [lra|]. field_simplify; lra.
Qed.
Lemma tanh_inj x y : tanh x = tanh y -> x = y.
Proof.
  intros H. unfold tanh in H. pose proof (cosh_pos x) as P. pose proof (cosh_pos y) as Q.
  assert (E : sinh x * cosh y = sinh y * cosh x).
  { apply (Rmult_eq_reg_r (/ (cosh x * cosh y))); [|apply Rinv_neq_0_compat; nra]. field_simplify; [|lra|lra].
    unfold Rdiv in *. lra. }
  unfold sinh, cosh in E.
  assert (F : exp x * exp (- y) = exp y * exp (- x)) by nra.
  rewrite <- !exp_plus in F. apply exp_inv in F. lra.
Qed.

Lemma grad_ext (f g : vec3 R -> R) p v : (forall p, f p = g p) -> is_grad f p v -> is_grad g p v.
Proof. intros H D e. eapply is_derive_ext; [|exact (D e)]. intros t. apply H. Qed.
Lemma grad_eq (f : vec3 R -> R) p v w : v = w -> is_grad f p v -> is_grad f p w.
Proof. intros ->. done. Qed.
Lemma grad_clip (A c k : R) (f : vec3 R -> R) p g : is_grad f p g ->
  is_grad (fun p => A * tanh (c + f p * k)) p (vscale (A * (1 - tanh (c + f p * k) * tanh (c + f p * k)) * k) g).
Proof.
  intros D e. specialize (D e).
  assert (M : move p e 0 = p) by (destruct p as [a1 a2 a3]; unfold move, vadd, vscale; cbn [vx vy vz]; f_equal; ring).
  set (h := fun t => f (move p e t)). change (is_derive h 0 (vdot g e)) in D.
  assert (H0 : f p = h 0) by (unfold h; by rewrite M).
  change (is_derive (fun t => A * tanh (c + h t * k)) 0
    (vdot (vscale (A * (1 - tanh (c + f p * k) * tanh (c + f p * k)) * k) g) e)).
  rewrite H0. clearbody h.
  assert (D1 : is_derive (fun t => c + h t * k) 0 (vdot g e * k)).
  { auto_derive; [by exists (vdot g e)|]. assert (U : Derive h 0 = vdot g e) by (apply is_derive_unique; exact D). change (Derive (fun x => h x) 0) with (Derive h 0). rewrite U. ring. }
  evar_last.
  - apply is_derive_scal. apply (is_derive_comp tanh (fun t => c + h t * k)); [apply tanh_derive|exact D1].
  - unfold scal; simpl. unfold Hierarchy.mult; simpl. unfold vdot, vscale. cbn [vx vy vz]. ring.
Qed.

Lemma foldl_same {A B} (f g : A -> B -> A) l a : (forall a b, f a b = g a b) -> foldl f a l = foldl g a l.
Proof. intros H. revert a. induction l as [|b l IH]; intros a; simpl; [done|]. by rewrite H, IH. Qed.
(** The loop over waves. *)
Definition loop_cos (amp arg : nat -> R) (l : list nat) : R := foldl (fun c i => c + amp i * cos (arg i)) 0 l.
Definition loop_deriv (amp arg : nat -> R) (q : nat -> vec3 R) (l : list nat) : vec3 R :=
  foldl (fun v i => vadd v (vscale (amp i * (-1 * sin (arg i))) (q i))) (V3 0 0 0) l.
Lemma loop_pair (amp arg : nat -> R) (q : nat -> vec3 R) (l : list nat) c v :
  foldl (fun (s : R * vec3 R) i => (fst s + amp i * cos (arg i), vadd (snd s) (vscale (amp i * (-1 * sin (arg i))) (q i)))) (c, v) l =
  (foldl (fun c i => c + amp i * cos (arg i)) c l, foldl (fun v i => vadd v (vscale (amp i * (-1 * sin (arg i))) (q i))) v l).
Proof. revert c v. induction l as [|i l IH]; intros c v; simpl; [done|]. apply IH. Qed.
Lemma loop_grad (amp : nat -> R) (arg : vec3 R -> nat -> R) (q : nat -> vec3 R) l p :
  (forall p e t i, arg (move p e t) i = arg p i + t * vdot (q i) e) ->
  is_grad (fun p => loop_cos amp (arg p) l) p (loop_deriv amp (arg p) q l).
Proof.
  intros A e. induction l as [|i l IH] using rev_ind.
  - unfold loop_cos, loop_deriv; simpl. evar_last; [apply is_derive_const|]. unfold zero; simpl. unfold vdot; cbn [vx vy vz]; ring.
  - unfold loop_cos, loop_deriv in *. rewrite foldl_snoc. 
    apply (is_derive_ext (fun t => foldl (fun c i => c + amp i * cos (arg (move p e t) i)) 0 l + amp i * cos (arg p i + t * vdot (q i) e))).
    { intros t. rewrite foldl_snoc. by rewrite <- A. }
    evar_last.
    + apply (is_derive_plus (fun t => foldl (fun c i => c + amp i * cos (arg (move p e t) i)) 0 l)); [exact IH|].
      assert (D : is_derive (fun t => amp i * cos (arg p i + t * vdot (q i) e)) 0 (amp i * (- sin (arg p i) * vdot (q i) e))).
      { auto_derive; [done|]. rewrite Rmult_0_l, Rplus_0_r. ring. }
      exact D.
    + unfold Hierarchy.plus; simpl. unfold vdot, vadd, vscale. cbn [vx vy vz]. match goal with |- ?a = ?b => change (@eq R a b) end. ring.
Qed.
Lemma q_move (per : Z) L w p e t s ph :
  vdot (wave_q per L w) (vsub (move p e t) s) + ph = vdot (wave_q per L w) (vsub p s) + ph + t * vdot (wave_q per L w) e.
Proof. unfold vdot, vsub, move, vadd, vscale, wave_q. cbn [vx vy vz]. ring. Qed.
Lemma q_move0 (per : Z) L w p e t :
  vdot (wave_q per L w) (move p e t) = vdot (wave_q per L w) p + t * vdot (wave_q per L w) e.
Proof. unfold vdot, move, vadd, vscale, wave_q. cbn [vx vy vz]. ring. Qed.
Lemma loop_cos1 (arg : nat -> R) (l : list nat) : foldl (fun c i => c + cos (arg i)) 0 l = loop_cos (fun _ => 1) arg l.
Proof. unfold loop_cos. apply foldl_same. intros c i. ring. Qed.
Lemma loop_pair1 (arg : nat -> R) (q : nat -> vec3 R) (l : list nat) :
  foldl (fun (s : R * vec3 R) i => (fst s + cos (arg i), vadd (snd s) (vscale (-1 * sin (arg i)) (q i)))) (0, V3 0 0 0) l =
  (loop_cos (fun _ => 1) arg l, loop_deriv (fun _ => 1) arg q l).
Proof.
  unfold loop_cos, loop_deriv. rewrite <- (loop_pair (fun _ => 1)). apply foldl_same. intros [c v] i. cbn [fst snd].
  f_equal; [ring|]. f_equal. f_equal. ring.
Qed.
Lemma vscale_opp k v : vopp (vscale (-1 * k) v) = vscale k v.
Proof. unfold vopp, vscale. cbn [vx vy vz]. f_equal; ring. Qed.
Lemma vscale_vscale a b v : vscale a (vscale b v) = vscale (a * b) v.
Proof. unfold vscale. cbn [vx vy vz]. f_equal; ring. Qed.
Lemma vopp_scale2 k m v : vopp (vscale (-1 * k) (vscale m v)) = vscale (k * m) v.
Proof. rewrite vscale_opp, vscale_vscale. done. Qed.

Lemma simple_grad x L type : conservative (fun p => simple_energy x L p type) (fun p => simple_getForce x L p type).
Proof.
  intros p. unfold simple_getForce.
  rewrite (loop_pair1 (fun i => vdot (wave_q (siPer x) L (si_wave x i)) p) (fun i => wave_q (siPer x) L (si_wave x i))).
  cbv beta zeta. rewrite vopp_scale2.
  set (arg := fun p i => vdot (wave_q (siPer x) L (si_wave x i)) p).
  pose proof (grad_clip (nth type (siPre x) 0 * siExt x) 0 (clipParameter (siPer x) (siWidth x)) _ p _
    (loop_grad (fun _ => 1) arg (fun i => wave_q (siPer x) L (si_wave x i)) (seq 0 (siN x)) p
       ltac:(intros; unfold arg; apply q_move0))) as G.
  eapply grad_ext; [|eapply grad_eq; [|exact G]].
  - intros p'. unfold simple_energy. cbv zeta. rewrite (loop_cos1 (arg p')). by rewrite Rplus_0_l.
  - cbv beta. rewrite Rplus_0_l. done.
Qed.
Lemma periodic_grad x L type : conservative (fun p => periodic_energy x L p type) (fun p => periodic_getForce x L p type).
Proof.
  intros p. unfold periodic_getForce, pe_loop.
  rewrite (loop_pair1 (fun i => pe_arg x L p i) (fun i => wave_q (pePer x) L (nth i (peWaves x) (V3 0 0 0)))).
  cbv beta zeta. rewrite vopp_scale2.
  pose proof (grad_clip (nth type (pePre x) 0 * peExt x) (peC x) (clipParameter (pePer x) (peWidth x)) _ p _
    (loop_grad (fun _ => 1) (pe_arg x L) (fun i => wave_q (pePer x) L (nth i (peWaves x) (V3 0 0 0))) (seq 0 (peN x)) p
       ltac:(intros; unfold pe_arg; apply q_move))) as G.
  eapply grad_ext; [|eapply grad_eq; [|exact G]].
  - intros p'. unfold periodic_energy, pe_cosine. cbv zeta. by rewrite (loop_cos1 (pe_arg x L p')).
  - done.
Qed.
Lemma general_grad x L type : conservative (fun p => general_energy x L p type) (fun p => general_getForce x L p type).
Proof.
  intros p. unfold general_getForce.
  rewrite (loop_pair (fun i => nth (i * geTypes x + type) (gePre x) 0) (fun i => ge_arg x L p i)
             (fun i => wave_q (gePer x) L (nth i (geWaves x) (V3 0 0 0)))).
  cbv beta zeta. rewrite vopp_scale2.
  pose proof (grad_clip (geExt x) 0 (clipParameter (gePer x) (geWidth x)) _ p _
    (loop_grad (fun i => nth (i * geTypes x + type) (gePre x) 0) (ge_arg x L)
       (fun i => wave_q (gePer x) L (nth i (geWaves x) (V3 0 0 0))) (seq 0 (geN x)) p
       ltac:(intros; unfold ge_arg; apply q_move))) as G.
  eapply grad_ext; [|eapply grad_eq; [|exact G]].
  - intros p'. unfold general_energy. cbv zeta. by rewrite Rplus_0_l.
  - cbv beta. rewrite Rplus_0_l. done.
Qed.
Lemma lamellar_grad x L type : (0 <= laDir x < 3)%Z ->
  conservative (fun p => lamellar_energy x L p type) (fun p => lamellar_getForce x L p type).
Proof.
  intros Hd p. unfold lamellar_getForce, lamellar_energy, lamellar_energy1, lamellar_forceScalar. cbv zeta.
  set (d := Z.to_nat (laDir x)). assert (Hd' : (d < 3)%nat) by (unfold d; lia). clearbody d.
  set (q := 2 * PI * IZR (laPer x) / vget L d). set (k := 1 / (q * laWidth x * vget L d)).
  set (A := nth type (laPre x) 0 * laExt x).
  assert (G : is_grad (fun p => cos (q * vget p d)) p (vset (V3 0 0 0) d (- sin (q * vget p d) * q))).
  { intros e. apply (is_derive_ext (fun t => cos (q * (vget p d + t * vget e d)))).
    { intros t. f_equal. f_equal. unfold move, vadd, vscale. destruct d as [|[|[|d]]]; [done|done|done|lia]. }
    evar_last; [auto_derive; done|]. rewrite Rmult_0_l, Rplus_0_r.
    unfold vdot. destruct d as [|[|[|d]]]; [| | |lia]; cbn [vget vset vx vy vz]; ring. }
  pose proof (grad_clip A 0 k _ p _ G) as H.
  eapply grad_ext; [|eapply grad_eq; [|exact H]].
  - intros p'. cbv beta. rewrite !Rplus_0_l. f_equal. f_equal. ring.
  - cbv beta. rewrite Rplus_0_l. rewrite (Rmult_comm (cos (q * vget p d)) k).
    destruct d as [|[|[|d]]]; [| | |lia]; unfold vopp, vscale; cbn [vget vset vx vy vz]; f_equal; ring.
Qed.

(** Documented energies. *)
Lemma foldl_plus_shift {B} (f : B -> R) l c : foldl (fun c i => c + f i) c l = c + foldl (fun c i => c + f i) 0 l.
Proof. revert c. induction l as [|i l IH]; intros c; simpl; [ring|]. rewrite IH, (IH (0 + f i)). ring. Qed.
Lemma foldl_cosines (per : Z) L p (f : nat -> R) (w : nat -> wave) l :
  (forall i, f i = cosines per L p [w i]) -> foldl (fun c i => c + f i) 0 l = cosines per L p (map w l).
Proof.
  intros H. induction l as [|i l IH]; [done|]. cbn [foldl map cosines]. rewrite foldl_plus_shift, IH, H. cbn [cosines]. ring.
Qed.
Definition si_waves (x : simple) : list wave := map (fun i => Wave 1 (si_wave x i) 0 (V3 0 0 0)) (seq 0 (siN x)).
Definition pe_waves (x : periodic) : list wave :=
  map (fun i => Wave 1 (nth i (peWaves x) (V3 0 0 0)) (nth i (pePhases x) 0) (peShift x)) (seq 0 (peN x)).
Definition ge_waves (x : general) (type : nat) : list wave :=
  map (fun i => Wave (nth (i * geTypes x + type) (gePre x) 0) (nth i (geWaves x) (V3 0 0 0)) (nth i (gePhases x) 0) (ge_shift x i))
      (seq 0 (geN x)).
Definition la_wave (x : lamellar) : wave := Wave 1 (vset (V3 0 0 0) (Z.to_nat (laDir x)) 1) 0 (V3 0 0 0).
Lemma simple_documented x L p type :
  simple_energy x L p type = clipped (nth type (siPre x) 0) (siExt x) 0 (siPer x) (siWidth x) L p (si_waves x).
Proof.
  unfold simple_energy, clipped, clipParameter. cbv zeta. f_equal. f_equal.
  rewrite (foldl_cosines (siPer x) L p _ (fun i => Wave 1 (si_wave x i) 0 (V3 0 0 0))).
  { fold (si_waves x). ring. }
  intros i. unfold cosines. cbn [waAmp waVec waPhase waOrigin]. rewrite Rmult_1_l, Rplus_0_r. f_equal.
  unfold vdot, wave_q, vsub. cbn [vx vy vz]. unfold Rdiv. ring.
Qed.
Lemma periodic_plus x L p type :
  periodic_energy x L p type = clipped_plus (nth type (pePre x) 0) (peExt x) (peC x) (pePer x) (peWidth x) L p (pe_waves x).
Proof.
  unfold periodic_energy, clipped_plus, clipParameter, pe_cosine. cbv zeta. f_equal. f_equal. f_equal.
  rewrite (foldl_cosines (pePer x) L p _ (fun i => Wave 1 (nth i (peWaves x) (V3 0 0 0)) (nth i (pePhases x) 0) (peShift x))).
  { fold (pe_waves x). ring. }
  intros i. unfold cosines. cbn [waAmp waVec waPhase waOrigin]. rewrite Rmult_1_l, Rplus_0_r. unfold pe_arg. f_equal. f_equal.
  unfold vdot, wave_q, vsub. cbn [vx vy vz]. unfold Rdiv. ring.
Qed.
Lemma general_documented x L p type :
  general_energy x L p type = clipped 1 (geExt x) 0 (gePer x) (geWidth x) L p (ge_waves x type).
Proof.
  unfold general_energy, clipped, clipParameter. cbv zeta. rewrite Rmult_1_l. f_equal. f_equal.
  rewrite (foldl_cosines (gePer x) L p _
    (fun i => Wave (nth (i * geTypes x + type) (gePre x) 0) (nth i (geWaves x) (V3 0 0 0)) (nth i (gePhases x) 0) (ge_shift x i))).
  { fold (ge_waves x type). ring. }
  intros i. unfold cosines. cbn [waAmp waVec waPhase waOrigin]. rewrite Rplus_0_r. unfold ge_arg. f_equal. f_equal. f_equal.
  unfold vdot, wave_q, vsub. cbn [vx vy vz]. unfold Rdiv. ring.
Qed.
Lemma lamellar_documented x L p type : (0 <= laDir x < 3)%Z -> positive3 L ->
  lamellar_energy x L p type = clipped (nth type (laPre x) 0) (laExt x) 0 (laPer x) (laWidth x) L p [la_wave x].
Proof.
  intros Hd (Lx & Ly & Lz). unfold lamellar_energy, lamellar_energy1, clipped, la_wave, cosines. cbv zeta. cbn [waAmp waVec waPhase waOrigin].
  set (d := Z.to_nat (laDir x)). assert (Hd' : (d < 3)%nat) by (unfold d; lia). clearbody d.
  assert (Ld : vget L d <> 0). { destruct d as [|[|[|d]]]; cbn [vget]; [lra|lra|lra|lia]. }
  rewrite Rplus_0_l. f_equal. f_equal.
  rewrite Rmult_1_l, !Rplus_0_r, Rplus_0_l. f_equal.
  - replace (2 * PI * IZR (laPer x) / vget L d * laWidth x * vget L d) with (2 * PI * IZR (laPer x) * laWidth x); [done|].
    field. done.
  - f_equal. destruct d as [|[|[|d]]]; [| | |lia]; unfold vsub; cbn [vget vset vx vy vz] in *; field; repeat split; lra.
Qed.

Lemma cos_int x (n : Z) : cos (x + 2 * PI * IZR n) = cos x.
Proof.
  assert (H : forall x n, cos (x + 2 * PI * INR n) = cos x).
  { intros y m. replace (2 * PI * INR m) with (2 * INR m * PI) by ring. apply cos_period. }
  destruct (Z_le_dec 0 n) as [Hn|Hn].
  - rewrite <- (Z2Nat.id n Hn), <- INR_IZR_INZ. apply H.
  - rewrite <- (H (x + 2 * PI * IZR n) (Z.to_nat (- n))). f_equal. rewrite INR_IZR_INZ, Z2Nat.id by lia. rewrite opp_IZR. ring.
Qed.
Lemma cosines_image (per : Z) L p ws (n : vec3 Z) : positive3 L -> Forall (fun w => int_vec (waVec w)) ws ->
  cosines per L (V3 (vx p + IZR (vx n) * vx L) (vy p + IZR (vy n) * vy L) (vz p + IZR (vz n) * vz L)) ws = cosines per L p ws.
Proof.
  intros (Lx & Ly & Lz) H. induction H as [|w ws (m & Hm) H IH]; [done|]. cbn [cosines]. rewrite IH. f_equal. f_equal.
  rewrite Hm. unfold vsub, vmap. cbn [vx vy vz].
  match goal with |- cos ?a = cos ?b =>
    transitivity (cos (b + 2 * PI * IZR (per * (vx m * vx n + vy m * vy n + vz m * vz n)))); [|apply cos_int] end.
  f_equal. rewrite !mult_IZR, !plus_IZR, !mult_IZR. field. repeat split; lra.
Qed.
