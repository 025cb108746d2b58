(** Properties C33, C34 and C55: the pair interactions. *)
From Verif Require Import Base PairModel PairSpec PairProofs Deriv.
From Coq Require Import Reals Lra.
From Coquelicot Require Import Coquelicot.
Local Open Scope R_scope.

(** C33, LJPair, outside the core (r^2 > 0.6 sigma^2), for any history of parameter changes.
    The full statement has no lower limit on [r]; see [lj_core_force_refuted]. *)
Theorem lj_force_is_gradient_partial :
  forall junk n eps sig cut ops p i j r,
  lj_life junk n eps sig cut ops = Ok p -> (i < n)%nat -> (j < n)%nat ->
  lj_get p PCutoff i j = Ok (cut i j) /\
  forall s, lj_get p PSigma i j = Ok s -> 0 < s -> 0 < r ->
  6/10 * s * s < r * r -> r < cut i j ->
  is_derive (fun r => lj_energy p (r * r) i j) r (- (lj_forceOverR p (r * r) i j * r)).
Proof.
  intros junk n eps sig cut ops p i j r H Hi Hj.
  destruct (lj_life_reach _ _ _ _ _ _ _ H) as [Rn Rc Ro].
  split; [simpl; by rewrite Rc|]. intros s [= <-] Hs Hr Hcore Hcut.
  apply lj_derive; auto; rewrite Rc by done; lra.
Qed.

(** C33 fails for LJPair in the core for every choice of parameters with epsilon <> 0: the
    energy is clamped and so has derivative 0, the force is not clamped. *)
Theorem lj_core_force_refuted :
  forall junk n eps sig cut p i j r,
  lj_life junk n eps sig cut [] = Ok p -> (i < n)%nat -> (j < n)%nat ->
  eps i j <> 0 -> 0 < sig i j -> 0 < r -> r < cut i j -> r * r < 6/10 * sig i j * sig i j ->
  ~ is_derive (fun r => lj_energy p (r * r) i j) r (- (lj_forceOverR p (r * r) i j * r)).
Proof.
  intros junk n eps sig cut p i j r H Hi Hj He Hs Hr Hc Hcore D.
  pose proof (lj_life_reach _ _ _ _ _ _ _ H) as [Rn Rc Ro].
  unfold lj_life in H. apply obind_Ok in H as (p1 & Hn & H). apply obind_Ok in H as (p0 & Hrd & H).
  injection H as ->.
  assert (S : (let? p := lj_setNAtomType (lj_new junk) n in lj_read p eps sig cut) = Ok p) by by rewrite Hn.
  apply lj_start in S as [_ S]. destruct (S i j Hi Hj) as (E1 & E2 & _).
  assert (D0 : is_derive (fun r => lj_energy p (r * r) i j) r 0).
  { apply lj_derive_core; rewrite ?E2, ?Rc; auto; lra. }
  pose proof (is_derive_unique _ _ _ D) as U. rewrite (is_derive_unique _ _ _ D0) in U.
  destruct (Ro i j Hi Hj) as [O1 _ O3]. unfold lj_forceOverR in U. rewrite O1, O3, E1, E2 in U.
  set (s := sig i j) in *. set (q := s * s * (1 / (r * r))) in U.
  assert (Hq : 1 < q).
  { unfold q. apply Rmult_lt_reg_r with (r * r); [nra|]. field_simplify; nra. }
  assert (Hq3 : 1 < q * q * q) by nra.
  assert (P1 : 0 < 1 / (r * r)) by (apply Rdiv_lt_0_compat; nra).
  assert (X : 48 * eps i j * (q * q * q - 1/2) * (q * q * q) * (1 / (r * r)) * r <> 0).
  { repeat apply Rmult_integral_contrapositive_currified; lra. }
  lra.
Qed.

(** C33, LJPair: continuous at the cutoff (with parameters as read; 0.6 sigma^2 < cutoff^2). *)
Theorem lj_energy_continuous_at_cutoff :
  forall junk n eps sig cut p i j,
  lj_life junk n eps sig cut [] = Ok p -> (i < n)%nat -> (j < n)%nat ->
  0 < sig i j -> 0 < cut i j -> 6/10 * sig i j * sig i j < cut i j * cut i j ->
  continuous (fun r => lj_energy p (r * r) i j) (cut i j) /\ lj_energy p (cut i j * cut i j) i j = 0.
Proof.
  intros junk n eps sig cut p i j H Hi Hj Hs Hc Hcore.
  pose proof (lj_life_reach _ _ _ _ _ _ _ H) as [Rn Rc Ro].
  unfold lj_life in H. apply obind_Ok in H as (p1 & Hn & H). apply obind_Ok in H as (p0 & Hrd & H).
  injection H as ->.
  assert (S : (let? p := lj_setNAtomType (lj_new junk) n in lj_read p eps sig cut) = Ok p) by by rewrite Hn.
  apply lj_start in S as [_ S]. destruct (S i j Hi Hj) as (E1 & E2 & E3).
  assert (F : forall r, 0 < r -> 6/10 * sig i j * sig i j <= r * r -> lj_energy p (r * r) i j =
     if Rlt_dec r (cut i j) then LJ_formula (eps i j) (sig i j) (cut i j) r else 0).
  { intros r Hr Hq. rewrite lj_energy_formula; auto; rewrite ?E1, ?E2, ?Rc; auto. }
  set (s := sig i j) in *. set (c := cut i j) in *.
  split; [|rewrite F by lra; destruct (Rlt_dec c c); [lra|done]].
  assert (Q : 0 < 6/10 * s * s) by (apply Rmult_lt_0_compat; [lra|done]).
  assert (Sq : sqrt (6/10 * s * s) < c).
  { rewrite <- (sqrt_square c) by lra. apply sqrt_lt_1; lra. }
  assert (CF : continuous (LJ_formula (eps i j) s c) c).
  { apply (ex_derive_continuous (V := R_NormedModule)). unfold LJ_formula. auto_derive. lra. }
  assert (LF : LJ_formula (eps i j) s c c = 0) by (unfold LJ_formula; ring).
  intros P HP. rewrite F in HP by lra. destruct (Rlt_dec c c) as [|_]; [lra|].
  rewrite <- LF in HP. specialize (CF P HP). unfold filtermap in *.
  assert (L0 : locally c (fun r => sqrt (6/10 * s * s) < r < c + 1)).
  { apply (locally_between (sqrt (6/10 * s * s)) (c + 1)); [lra|auto]. }
  generalize (filter_and _ _ L0 CF). apply filter_imp. intros r [[R1 R2] PR].
  assert (Pr : 0 < r) by (apply Rle_lt_trans with (2 := R1); apply sqrt_pos).
  rewrite F; [|done|].
  - destruct (Rlt_dec r c); [done|]. rewrite <- LF. by apply locally_singleton.
  - rewrite <- (sqrt_def (6/10 * s * s)) by lra. pose proof (sqrt_pos (6/10 * s * s)). nra.
Qed.

(** C33, WcaPair outside the core: gradient, and both energy and force vanish at the cutoff. *)
Theorem wca_force_is_gradient_partial :
  forall junk n eps sig p i j,
  wca_life junk n eps sig [] = Ok p -> (i < n)%nat -> (j < n)%nat -> 0 < sig i j ->
  let rc := sig i j * Rpower 2 (1/6) in
  lj_get p PCutoff i j = Ok rc /\
  (forall r, 0 < r -> 6/10 * sig i j * sig i j < r * r -> r < rc ->
     lj_energy p (r * r) i j = 4 * eps i j * ((sig i j / r) ^ 12 - (sig i j / r) ^ 6) + eps i j /\
     is_derive (fun r => lj_energy p (r * r) i j) r (- (lj_forceOverR p (r * r) i j * r))) /\
  (forall r, rc <= r -> lj_energy p (r * r) i j = 0) /\
  lj_forceOverR p (rc * rc) i j = 0 /\
  is_derive (fun r => lj_energy p (r * r) i j) rc 0.
Proof.
  intros junk n eps sig p i j H Hi Hj Hs rc.
  unfold wca_life in H. apply obind_Ok in H as (p1 & Hn & H). apply obind_Ok in H as (p0 & Hrd & H).
  injection H as ->.
  assert (S : (let? p := lj_setNAtomType (lj_new junk) n in wca_read p eps sig) = Ok p) by by rewrite Hn.
  apply wca_start in S as [[Rn Rc Ro] S]. destruct (S i j Hi Hj) as (E1 & E2 & E3).
  specialize (Rc i j Hi Hj). specialize (Ro i j Hi Hj). simpl in Rc. fold rc in Rc.
  set (s := sig i j) in *. set (k := Rpower 2 (1/6)) in *.
  assert (Pk : 0 < k) by apply exp_pos.
  assert (K6 : k ^ 6 = 2).
  { unfold k. rewrite <- Rpower_pow by apply exp_pos. rewrite Rpower_mult.
    replace (1 / 6 * INR 6) with 1 by (simpl; field). apply Rpower_1. lra. }
  assert (K1 : 1 < k).
  { destruct (Rlt_dec 1 k); [done|]. exfalso.
    assert (k ^ 6 <= 1 ^ 6) by (apply pow_incr; lra). lra. }
  assert (Prc : s < rc) by (unfold rc; nra).
  assert (Q6 : (s / rc) ^ 6 = 1/2).
  { unfold rc. replace (s / (s * k)) with (/ k) by (field; lra). rewrite pow_inv, K6. lra. }
  assert (F : forall r, 0 < r -> 6/10 * s * s <= r * r -> lj_energy p (r * r) i j =
     if Rlt_dec r rc then LJ_formula (eps i j) s rc r else 0).
  { intros r Hr Hq. rewrite lj_energy_formula; rewrite ?E1, ?E2, ?Rc; auto; lra. }
  assert (G : forall r, LJ_formula (eps i j) s rc r = 4 * eps i j * ((s / r) ^ 12 - (s / r) ^ 6) + eps i j).
  { intros r. unfold LJ_formula. replace ((s / rc) ^ 12) with ((s / rc) ^ 6 * (s / rc) ^ 6) by ring.
    rewrite Q6. generalize ((s / r) ^ 12), ((s / r) ^ 6). intros. field. }
  assert (FR : lj_forceOverR p (rc * rc) i j = 0).
  { unfold lj_forceOverR. destruct Ro as [-> _ ->]. rewrite E1, E2.
    replace (s * s * (1 / (rc * rc)) * (s * s * (1 / (rc * rc))) * (s * s * (1 / (rc * rc))))
      with ((s / rc) ^ 6) by (field; lra).
    rewrite Q6. ring. }
  assert (B : forall r, rc <= r -> lj_energy p (r * r) i j = 0).
  { intros r Hr. rewrite F; [|nra|nra]. destruct (Rlt_dec r rc); [lra|done]. }
  assert (Q : 0 < 6/10 * s * s) by (apply Rmult_lt_0_compat; [lra|done]).
  assert (Sq : sqrt (6/10 * s * s) < rc).
  { rewrite <- (sqrt_square rc) by lra. apply sqrt_lt_1; nra. }
  split; [simpl; by rewrite Rc|]. split; [|split; [done|split; [done|]]].
  - intros r Hr Hcore Hcut. split.
    + rewrite F by lra. destruct (Rlt_dec r rc); [apply G|lra].
    + apply lj_derive; rewrite ?E2, ?Rc; auto; lra.
  - apply (is_derive_glue (sqrt (6/10 * s * s)) (rc + 1) _ _ _ (LJ_formula (eps i j) s rc) (fun _ => 0)).
    + lra.
    + unfold LJ_formula. auto_derive; [lra|].
      assert (X : s ^ 6 = 1/2 * rc ^ 6).
      { rewrite <- Q6. field. lra. }
      assert (Y : eps i j * 24 * (s ^ 6) * (rc ^ 6 - 2 * s ^ 6) = 0) by (rewrite X; field).
      transitivity (eps i j * 24 * (s ^ 6) * (rc ^ 6 - 2 * s ^ 6) / rc ^ 13); [field; lra|rewrite Y; field; lra].
    + apply (is_derive_const (V := R_NormedModule)).
    + rewrite G. replace ((s / rc) ^ 12) with ((s / rc) ^ 6 * (s / rc) ^ 6) by ring. rewrite Q6. field.
    + intros y Hy. assert (Py : 0 < y) by (apply Rle_lt_trans with (r2 := sqrt (6/10 * s * s)); [apply sqrt_pos|lra]).
      rewrite F; [destruct (Rlt_dec y rc); [done|lra]|done|].
      rewrite <- (sqrt_def (6/10 * s * s)) by lra. pose proof (sqrt_pos (6/10 * s * s)). nra.
    + intros y Hy. apply B. lra.
Qed.

(** C33, DpdPair: for every separation, after any history of setEpsilon and setSigma. *)
Theorem dpd_force_is_gradient :
  forall junk n eps sig ops p i j s r,
  symmetric eps -> symmetric sig -> List.Forall setter ops ->
  dpd_life junk n eps sig ops = Ok p -> (i < n)%nat -> (j < n)%nat ->
  dpd_get p PSigma i j = Ok s -> 0 < s -> 0 < r ->
  is_derive (fun r => dpd_energy p (r * r) i j) r (- (dpd_forceOverR p (r * r) i j * r)).
Proof.
  intros junk n eps sig ops p i j s r Se Ss Hops H Hi Hj [= <-] Hs Hr.
  unfold dpd_life in H. apply obind_Ok in H as (p1 & Hn & H). apply obind_Ok in H as (p0 & Hrd & H).
  assert (S : (let? p := dpd_setNAtomType (dpd_new junk) n in dpd_read p eps sig) = Ok p0) by by rewrite Hn.
  apply dpd_start in S as [S _]; [|done|done].
  assert (G : dpd_good n p).
  { revert Hops S H. apply run_inv_ops. intros. by eapply dpd_good_step. }
  apply dpd_derive; auto. by apply (dg_ok _ _ G).
Qed.

(** C34, LJPair: whatever the history, forces are symmetric and are those of the reported
    parameters.  (Energies: see the next two theorems.) *)
Theorem lj_force_consistent :
  forall junk n eps sig cut ops p i j rsq,
  symmetric eps -> symmetric sig ->
  lj_life junk n eps sig cut ops = Ok p -> (i < n)%nat -> (j < n)%nat -> 0 < rsq ->
  lj_forceOverR p rsq i j = lj_forceOverR p rsq j i /\
  forall e s, lj_get p PEpsilon i j = Ok e -> lj_get p PSigma i j = Ok s ->
  lj_get p PEpsilon j i = Ok e /\ lj_get p PSigma j i = Ok s /\
  lj_forceOverR p rsq i j = 24 * e * (2 * (s ^ 2 / rsq) ^ 6 - (s ^ 2 / rsq) ^ 3) / rsq.
Proof.
  intros junk n eps sig cut ops p i j rsq Se Ss H Hi Hj Hr.
  pose proof (lj_life_reach _ _ _ _ _ _ _ H) as [Rn Rc Ro].
  unfold lj_life in H. apply obind_Ok in H as (p1 & Hn & H). apply obind_Ok in H as (p0 & Hrd & H).
  assert (S : (let? p := lj_setNAtomType (lj_new junk) n in lj_read p eps sig cut) = Ok p0) by by rewrite Hn.
  apply lj_start in S as [_ S].
  assert (Sy : sym_below n (lEps p) /\ sym_below n (lSig p)).
  { assert (S0 : sym_below n (lEps p0) /\ sym_below n (lSig p0)).
    { split; intros a b La Lb; destruct (S a b La Lb) as (A1 & A2 & _); destruct (S b a Lb La) as (B1 & B2 & _);
        rewrite ?A1, ?A2, ?B1, ?B2; auto. }
    revert S0 H. apply (run_inv lj_step (fun p => sym_below n (lEps p) /\ sym_below n (lSig p))).
    intros q o q' [Q1 Q2] Hq. destruct (lj_step_ok n _ _ _ Hq) as (_ & _ & _ & ? & ? & _). auto. }
  destruct Sy as [S1 S2]. destruct (Ro i j Hi Hj) as [O1 _ O3]. destruct (Ro j i Hj Hi) as [P1 _ P3].
  unfold lj_forceOverR. rewrite O1, O3, P1, P3, (S1 i j), (S2 i j) by done. split; [done|].
  intros e s [= E] [= F]. simpl. rewrite (S1 i j) in E by done. rewrite (S2 i j) in F by done.
  rewrite E, F. split; [done|]. split; [done|]. field. lra.
Qed.

(** C34, LJPair energies, for histories in which setSigma and set are only called with i = j.
    The full statement is for all histories; it fails ([lj_energy_symmetric_refuted]). *)
Theorem lj_energy_consistent_partial :
  forall junk n eps sig cut ops p i j r,
  symmetric eps -> symmetric sig -> symmetric cut ->
  List.Forall careful ops -> lj_life junk n eps sig cut ops = Ok p -> (i < n)%nat -> (j < n)%nat -> 0 < r ->
  lj_energy p (r * r) i j = lj_energy p (r * r) j i /\
  forall e s, lj_get p PEpsilon i j = Ok e -> lj_get p PSigma i j = Ok s ->
  0 < s -> 0 < cut i j -> 6/10 * s * s <= r * r ->
  lj_energy p (r * r) i j = if Rlt_dec r (cut i j) then LJ_formula e s (cut i j) r else 0.
Proof.
  intros junk n eps sig cut ops p i j r Se Ss Sc Hops H Hi Hj Hr.
  pose proof (lj_life_reach _ _ _ _ _ _ _ H) as [Rn Rc Ro].
  unfold lj_life in H. apply obind_Ok in H as (p1 & Hn & H). apply obind_Ok in H as (p0 & Hrd & H).
  assert (S : (let? p := lj_setNAtomType (lj_new junk) n in lj_read p eps sig cut) = Ok p0) by by rewrite Hn.
  apply lj_start in S as [[Zn Zc Zo] S].
  assert (G0 : lj_good n p0).
  { split; auto; try (intros a b La Lb; destruct (S a b La Lb) as (A1 & A2 & A3); destruct (S b a Lb La) as (B1 & B2 & B3);
        rewrite ?A1, ?A2, ?B1, ?B2, ?Zc; auto). }
  assert (G : lj_good n p).
  { revert Hops G0 H. apply run_inv_ops. intros. by eapply lj_good_step. }
  destruct G as [G1 G2 G3 G4 G5 _].
  split.
  - unfold lj_energy. pose proof (G2 i j Hi Hj) as Si. pose proof (G2 j i Hj Hi) as Sj.
    unfold shift_ok in Si, Sj. rewrite Si, Sj.
    destruct (G1 i j Hi Hj) as [-> -> _], (G1 j i Hj Hi) as [-> -> _].
    by rewrite (G3 i j), (G4 i j), (G5 i j).
  - intros e s [= <-] [= <-] Hs Hc Hq. rewrite <- (Rc i j) in * by done. apply lj_energy_formula; auto.
Qed.

(** C34 fails for LJPair: setSigma(i,j,s) leaves the shift of (j,i) unchanged.  For all
    parameters with epsilon <> 0 and a new sigma for which the shift differs, energies of
    (i,j) and (j,i) differ at every separation below the cutoff. *)
Theorem lj_energy_symmetric_refuted :
  forall junk eps sig cut s p r,
  symmetric eps -> symmetric sig -> symmetric cut ->
  lj_life junk 2 eps sig cut (SetSigma 0 1 s :: nil) = Ok p ->
  lj_shift_of (eps 0 1)%nat (s * s) (cut 0%nat 1%nat * cut 0%nat 1%nat) <>
  lj_shift_of (eps 0 1)%nat (sig 0%nat 1%nat * sig 0%nat 1%nat) (cut 0%nat 1%nat * cut 0%nat 1%nat) ->
  r * r < cut 0%nat 1%nat * cut 0%nat 1%nat ->
  lj_energy p (r * r) 0 1 <> lj_energy p (r * r) 1 0.
Proof.
  intros junk eps sig cut s p r Se Ss Sc H Hne Hr.
  pose proof (lj_life_reach _ _ _ _ _ _ _ H) as [Rn Rc Ro].
  unfold lj_life in H. apply obind_Ok in H as (p1 & Hn & H). apply obind_Ok in H as (p0 & Hrd & H).
  assert (S : (let? p := lj_setNAtomType (lj_new junk) 2 in lj_read p eps sig cut) = Ok p0) by by rewrite Hn.
  apply lj_start in S as [[Zn Zc Zo] S].
  simpl in H. destruct (lj_setSigma p0 0 1 s) as [q| |] eqn:E; try done. simpl in H. injection H as ->.
  pose proof (lj_setSigma_shift _ _ _ _ _ E) as Sh.
  apply lj_setSigma_eq in E as (F1 & F2 & F3 & F4 & F5 & F).
  assert (L0 : (0 < 2)%nat) by lia. assert (L1 : (1 < 2)%nat) by lia.
  destruct (S 0 1 L0 L1)%nat as (A1 & A2 & A3). destruct (S 1 0 L1 L0)%nat as (B1 & B2 & B3).
  unfold shift_ok in B3.
  destruct (Zo 1 0 L1 L0)%nat as [Q1 Q2 _]. destruct (Zo 0 1 L0 L1)%nat as [Q3 Q4 _].
  rewrite Q1, Q2, B1, B2, Zc in B3 by done. rewrite Zc in Q2, Q4 by done.
  unfold lj_energy. rewrite F1, F4, Q2, Q4, (Sc 1 0)%nat, A1, B1.
  destruct (Rlt_dec (r * r) (cut 0%nat 1%nat * cut 0%nat 1%nat)) as [_|]; [|done].
  destruct (F 0 1)%nat as [(_ & _ & ->)|(D & _)]; [|exfalso; apply D; lia].
  destruct (F 1 0)%nat as [(_ & _ & ->)|(D & _)]; [|exfalso; apply D; lia].
  destruct (Sh 0 1)%nat as [(_ & _ & ->)|[D _]]; [|lia].
  destruct (Sh 1 0)%nat as [(D & _)|[_ ->]]; [lia|].
  rewrite A1, Q4, B3. intros X. apply Hne.
  rewrite (Se 1 0)%nat, (Ss 1 0)%nat, (Sc 1 0)%nat in X. clear -X.
  match type of X with ?a + ?b = ?c + ?d => assert (b = d) by lra end. lra.
Qed.

(** C34, DpdPair, histories of setEpsilon and setSigma.  The full statement, with set,
    fails: [dpd_set_refuted]. *)
Theorem dpd_consistent_partial :
  forall junk n eps sig ops p i j e s r,
  symmetric eps -> symmetric sig -> List.Forall setter ops ->
  dpd_life junk n eps sig ops = Ok p -> (i < n)%nat -> (j < n)%nat ->
  dpd_get p PEpsilon i j = Ok e -> dpd_get p PSigma i j = Ok s -> 0 < s -> 0 < r ->
  dpd_energy p (r * r) i j = dpd_energy p (r * r) j i /\
  dpd_forceOverR p (r * r) i j = dpd_forceOverR p (r * r) j i /\
  dpd_energy p (r * r) i j = (if Rlt_dec r s then DPD_formula e s r else 0) /\
  dpd_forceOverR p (r * r) i j * r = (if Rlt_dec r s then e / s * (1 - r / s) else 0).
Proof.
  intros junk n eps sig ops p i j e s r Se Ss Hops H Hi Hj [= <-] [= <-] Hs Hr.
  unfold dpd_life in H. apply obind_Ok in H as (p1 & Hn & H). apply obind_Ok in H as (p0 & Hrd & H).
  assert (S : (let? p := dpd_setNAtomType (dpd_new junk) n in dpd_read p eps sig) = Ok p0) by by rewrite Hn.
  apply dpd_start in S as [S _]; [|done|done].
  assert (G : dpd_good n p).
  { revert Hops S H. apply run_inv_ops. intros. by eapply dpd_good_step. }
  destruct G as [G1 G2 G3 _].
  destruct (G1 i j Hi Hj) as [A1 A2 A3], (G1 j i Hj Hi) as [B1 B2 B3].
  unfold dpd_energy, dpd_forceOverR. rewrite A3, A2, A1, B3, B2, B1, <- (G2 i j), <- (G3 i j) by done.
  split; [done|]. split; [done|]. set (s := dSig p i j) in *.
  rewrite sqrt_square by lra. unfold DPD_formula.
  destruct (Rlt_dec (r * r) (s * s)) as [L|L], (Rlt_dec r s) as [L'|L']; try nra.
  split; field; lra.
Qed.

(** C34 fails for DpdPair: after set("epsilon",...) the energy is that of the old epsilon. *)
Theorem dpd_set_refuted :
  forall junk n eps sig i j e p r,
  symmetric eps -> symmetric sig -> (i < n)%nat -> (j < n)%nat ->
  dpd_life junk n eps sig (SetByName PEpsilon i j e :: nil) = Ok p -> e <> eps i j ->
  0 < sig i j -> 0 < r -> r < sig i j ->
  dpd_get p PEpsilon i j = Ok e /\ dpd_energy p (r * r) i j = DPD_formula (eps i j) (sig i j) r /\
  dpd_energy p (r * r) i j <> DPD_formula e (sig i j) r.
Proof.
  intros junk n eps sig i j e p r Se Ss Hi Hj H Hne Hs Hr Hc.
  unfold dpd_life in H. apply obind_Ok in H as (p1 & Hn & H). apply obind_Ok in H as (p0 & Hrd & H).
  assert (S : (let? p := dpd_setNAtomType (dpd_new junk) n in dpd_read p eps sig) = Ok p0) by by rewrite Hn.
  apply dpd_start in S as [[G1 G2 G3 G4] S]; [|done|done].
  destruct (S i j Hi Hj) as [E1 E2]. destruct (G1 i j Hi Hj) as [O1 O2 O3].
  simpl in H. unfold dpd_set in H. destruct (negb _); [done|]. simpl in H. injection H as <-.
  simpl. split.
  { f_equal. tcase; done. }
  unfold dpd_energy; simpl. rewrite O1, O3, O2, E1, E2, sqrt_square by lra.
  destruct (Rlt_dec (r * r) (sig i j * sig i j)); [|nra].
  assert (A : 1/2 * (eps i j / (sig i j * sig i j)) * (r - sig i j) * (r - sig i j) =
              DPD_formula (eps i j) (sig i j) r).
  { unfold DPD_formula. field. lra. }
  split; [exact A|]. rewrite A. unfold DPD_formula. intros X.
  assert (Y : (1 - r / sig i j) ^ 2 <> 0).
  { apply pow_nonzero. intros Z. assert (r = sig i j); [|lra].
    apply Rmult_eq_reg_r with (/ sig i j); [|apply Rinv_neq_0_compat; lra].
    rewrite Rinv_r by lra. unfold Rdiv in Z. lra. }
  apply Hne. nra.
Qed.

(** C55, CompensatedPair: if the bare pair and link potentials have consistent energy and
    force at [r], and the bare energy vanishes at and beyond its cutoff, so has the
    compensated potential at every [r] other than the two cutoffs. *)
Theorem compensated_force_is_gradient :
  forall pairE pairF (pairCut : nat -> nat -> R) linkE linkF pairMax maxLink temp mu i j r,
  temp <> 0 -> 0 < maxLink -> 0 < pairCut i j -> 0 < r ->
  r <> pairCut i j -> r <> maxLink ->
  (r < pairCut i j -> is_derive (fun r => pairE (r * r) i j) r (- (pairF (r * r) i j * r))) ->
  (forall y, pairCut i j <= y -> pairE (y * y) i j = 0) ->
  (r < maxLink -> is_derive (fun r => linkE (r * r) 0%nat) r (- (linkF (r * r) 0%nat * r))) ->
  is_derive (fun r => comp_energy pairE linkE (comp_read pairMax maxLink temp mu) (r * r) i j) r
   (- (comp_forceOverR pairF (fun i j => pairCut i j * pairCut i j) linkE linkF
         (comp_read pairMax maxLink temp mu) (r * r) i j * r)).
Proof.
  intros pairE pairF pairCut linkE linkF pairMax maxLink temp mu i j r Ht Hm Hc Hr Nc Nm HP H0 HL.
  set (c := pairCut i j) in *.
  assert (DP : is_derive (fun r => pairE (r * r) i j) r
     (- ((if Rlt_dec (r * r) (c * c) then 0 + pairF (r * r) i j else 0) * r))).
  { destruct (Rlt_dec (r * r) (c * c)) as [L|L].
    - replace (0 + pairF (r * r) i j) with (pairF (r * r) i j) by ring. apply HP. nra.
    - replace (- (0 * r)) with 0 by ring.
      apply (is_derive_between c (r + 1) _ _ _ (fun _ => 0)).
      + assert (c <= r) by nra. lra.
      + intros y Hy. apply H0. lra.
      + apply (is_derive_const (V := R_NormedModule)). }
  unfold comp_energy, comp_forceOverR, comp_read; simpl. fold c.
  destruct (Rlt_dec (r * r) (maxLink * maxLink)) as [L|L].
  - apply (is_derive_between 0 maxLink _ _ _ (fun r => pairE (r * r) i j +
      exp (mu * (1 / temp)) * temp * exp (- (1 / temp) * linkE (r * r) 0%nat))).
    + nra.
    + intros y Hy. destruct (Rlt_dec (y * y) (maxLink * maxLink)); [done|nra].
    + assert (Lr : r < maxLink) by nra. specialize (HL Lr).
      set (fL := fun r => linkE (r * r) 0%nat) in *. set (fP := fun r => pairE (r * r) i j) in *.
      apply (is_derive_ext (fun r => plus (fP r) (exp (mu * (1 / temp)) * temp * exp (- (1 / temp) * fL r)))).
      { intros t. unfold fP, fL. done. }
      eapply (is_derive_ext fP) in DP; [|done].
      assert (DE : is_derive (fun r => exp (mu * (1 / temp)) * temp * exp (- (1 / temp) * fL r)) r
         (exp (mu * (1 / temp)) * exp (- (1 / temp) * fL r) * (linkF (r * r) 0%nat * r))).
      { assert (DG : forall (A : R) (f : R -> R) l, is_derive f r l ->
            is_derive (fun r => A * temp * exp (- (1 / temp) * f r)) r (A * exp (- (1 / temp) * f r) * - l)).
        { intros A f l Hf. auto_derive; [eexists; exact Hf|].
          replace (Derive (fun x => f x) r) with l by (symmetry; apply is_derive_unique; done). field. done. }
        specialize (DG (exp (mu * (1 / temp))) fL _ HL). rewrite Ropp_involutive in DG. exact DG. }
      pose proof (is_derive_plus (V := R_NormedModule) _ _ _ _ _ DP DE) as DD.
      refine (eq_ind _ (is_derive _ r) DD _ _).
      unfold plus; simpl. unfold fL. ring.
  - apply (is_derive_between maxLink (r + 1) _ _ _ (fun r => pairE (r * r) i j)).
    + assert (maxLink <= r) by nra. lra.
    + intros y Hy. destruct (Rlt_dec (y * y) (maxLink * maxLink)); [nra|done].
    + exact DP.
Qed.

(** Examples: the hypotheses are met by ordinary parameters. *)
Definition ex_tab (x : R) : tab := fun _ _ => x.
Definition ex_junk : lj := LJ (ex_tab 7) (ex_tab 7) (ex_tab 7) (ex_tab 7) (ex_tab 7) (ex_tab 7) (ex_tab 7) 7 9 true.

Example lj_life_ex : exists p,
  lj_life ex_junk 2 (ex_tab 1) (ex_tab 1) (ex_tab 2) (SetSigma 0 1 (11/10) :: SetEpsilon 1 1 2 :: SetByName PSigma 0 0 1 :: nil) = Ok p
  /\ lj_get p PSigma 0 1 = Ok (11/10) /\ 6/10 * (11/10) * (11/10) < 1 * 1 /\ 1 < ex_tab 2 0%nat 1%nat.
Proof. eexists. split; [reflexivity|]. split; [reflexivity|]. unfold ex_tab. lra. Qed.
Example lj_core_ex : exists p, lj_life ex_junk 1 (ex_tab 1) (ex_tab 1) (ex_tab 2) [] = Ok p /\
  1/2 * (1/2) < 6/10 * ex_tab 1 0%nat 0%nat * ex_tab 1 0%nat 0%nat.
Proof. eexists. split; [reflexivity|]. unfold ex_tab. lra. Qed.
Example lj_asym_ex : exists p, lj_life ex_junk 2 (ex_tab 1) (ex_tab 1) (ex_tab 2) (SetSigma 0 1 (3/2) :: nil) = Ok p /\
  lj_shift_of 1 (3/2 * (3/2)) (2 * 2) <> lj_shift_of 1 (1 * 1) (2 * 2).
Proof. eexists. split; [reflexivity|]. unfold lj_shift_of. lra. Qed.
Example wca_life_ex : exists p, wca_life ex_junk 2 (ex_tab 1) (ex_tab 1) [] = Ok p.
Proof. eexists. reflexivity. Qed.
Definition ex_djunk : dpd := DPD (ex_tab 7) (ex_tab 7) (ex_tab 7) (ex_tab 7) (ex_tab 7) 7 9 true.
Example dpd_life_ex : exists p, dpd_life ex_djunk 2 (ex_tab 1) (ex_tab 1) (SetSigma 0 1 2 :: SetEpsilon 1 0 3 :: nil) = Ok p
  /\ dpd_get p PSigma 1 0 = Ok 2 /\ dpd_get p PEpsilon 0 1 = Ok 3.
Proof. eexists. split; [reflexivity|split; reflexivity]. Qed.

Print Assumptions lj_force_is_gradient_partial.
Print Assumptions lj_core_force_refuted.
Print Assumptions lj_energy_continuous_at_cutoff.
Print Assumptions wca_force_is_gradient_partial.
Print Assumptions dpd_force_is_gradient.
Print Assumptions lj_force_consistent.
Print Assumptions lj_energy_consistent_partial.
Print Assumptions lj_energy_symmetric_refuted.
Print Assumptions dpd_consistent_partial.
Print Assumptions dpd_set_refuted.
Print Assumptions compensated_force_is_gradient.
