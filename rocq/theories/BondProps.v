(** Property C35: bond interactions. *)
From Verif Require Import Base BondModel BondSpec PairModel PairSpec PairProofs Deriv.
From Coq Require Import Reals Lra.
From Coquelicot Require Import Coquelicot.
Local Open Scope R_scope.

(** HarmonicBond, all histories. *)
Theorem harmonic_bond_force_is_gradient :
  forall n k l ops b i kap len r,
  hb_life n k l ops = Ok b -> hb_get b BKappa i = Ok kap -> hb_get b BLength i = Ok len -> 0 < r ->
  hb_energy b (r * r) i = harmonic_formula kap len r /\
  is_derive (fun r => hb_energy b (r * r) i) r (- (hb_forceOverR b (r * r) i * r)).
Proof.
  intros n k l ops b i kap len r _ [= <-] [= <-] Hr.
  assert (E : forall r, 0 < r -> hb_energy b (r * r) i = harmonic_formula (hbK b i) (hbL b i) r).
  { intros q Hq. unfold hb_energy, harmonic_formula. rewrite sqrt_square by lra. ring. }
  split; [auto|].
  apply (is_derive_between 0 (r + 1) _ _ _ (harmonic_formula (hbK b i) (hbL b i))); [lra| |].
  - intros y Hy. apply E. lra.
  - unfold harmonic_formula, hb_forceOverR. rewrite sqrt_square by lra. auto_derive; [done|field; lra].
Qed.

(** After any history get reports what was last written. *)
Theorem harmonic_bond_get_reports :
  forall n k l ops nm i x b b',
  hb_life n k l ops = Ok b -> hb_set b nm i x = Ok b' ->
  hb_get b' nm i = Ok x /\
  forall nm' i', (nm', i') <> (nm, i) -> hb_get b' nm' i' = hb_get b nm' i'.
Proof.
  intros n k l ops nm i x b b' _. unfold hb_set, hb_get.
  destruct nm; try done; destruct (i <? 8)%nat; try done; intros [= <-]; simpl; unfold pset;
    (split; [by rewrite Nat.eqb_refl|]); intros nm' i' Hne; destruct nm'; try done;
    destruct (Nat.eqb_spec i' i); try done; subst; by destruct Hne.
Qed.

(** HarmonicL0Bond, all histories. *)
Theorem harmonicL0_bond_force_is_gradient :
  forall n k ops b i kap r,
  l0_life n k ops = Ok b -> l0_get b BKappa i = Ok kap -> 0 < r ->
  l0_energy b (r * r) i = harmonic_formula kap 0 r /\
  is_derive (fun r => l0_energy b (r * r) i) r (- (l0_forceOverR b (r * r) i * r)).
Proof.
  intros n k ops b i kap r _ [= <-] Hr. unfold l0_energy, l0_forceOverR, harmonic_formula.
  split; [ring|]. auto_derive; [done|field].
Qed.

(** Derived constants of a FENE bond. *)
Record fene_ok (b : fene) (i : nat) : Prop := {
  fo1 : fR0Sq b i = fR0 b i * fR0 b i;
  fo2 : fR0SqInv b i = 1 / (fR0 b i * fR0 b i);
  fo3 : fCe b i = -1/2 * (fR0 b i * fR0 b i) * fK b i;
  fo4 : fRl b i = let y := 1/2 * fK b i * fR0 b i / fFcut b in fR0 b i * (sqrt (1 + y * y) - y);
  fo5 : fRlSq b i = fRl b i * fRl b i;
  fo6 : fEcut b i = fCe b i * ln (1 - fRlSq b i * fR0SqInv b i)
}.
Lemma pset_eq t i x : pset t i x i = x.
Proof. unfold pset. by rewrite Nat.eqb_refl. Qed.
Lemma pset_ne t i x j : j <> i -> pset t i x j = t j.
Proof. unfold pset. by destruct (Nat.eqb_spec j i). Qed.
Lemma fene_derive_ok b i : fene_ok (fene_derive b i) i.
Proof. split; simpl; by rewrite ?pset_eq. Qed.
Lemma fene_derive_other b i j : j <> i -> fene_ok b j -> fene_ok (fene_derive b i) j.
Proof. intros H [A1 A2 A3 A4 A5 A6]. split; simpl; rewrite !pset_ne by done; auto. Qed.
Lemma fene_derive_same b i :
  fK (fene_derive b i) = fK b /\ fR0 (fene_derive b i) = fR0 b /\ fFcut (fene_derive b i) = fFcut b /\
  fN (fene_derive b i) = fN b.
Proof. done. Qed.
Lemma fene_loop m b :
  let b' := fold_left fene_derive (seq 0 m) b in
  (forall i, (i < m)%nat -> fene_ok b' i) /\ fK b' = fK b /\ fR0 b' = fR0 b /\ fFcut b' = fFcut b /\ fN b' = fN b.
Proof.
  induction m as [|m IH]; cbv zeta in *; [split; [lia|done]|].
  rewrite seq_S, fold_left_app. destruct IH as (A & B). cbn [fold_left Nat.add].
  split; [|exact B]. intros i Hi. destruct (decide (i = m)) as [->|Hne]; [apply fene_derive_ok|].
  apply fene_derive_other; [done|]. apply A. lia.
Qed.
Lemma fene_life_ok junk n k r0 fc ops b : fene_life junk n k r0 fc ops = Ok b ->
  (forall i, (i < n)%nat -> fene_ok b i) /\ fFcut b = fc.
Proof.
  unfold fene_life. intros H. apply obind_Ok in H as (b1 & H1 & H). apply obind_Ok in H as (b2 & H2 & H).
  assert (N1 : fN b1 = n).
  { unfold fene_setN in H1. destruct (2 <? n)%nat; [done|]. by injection H1 as <-. }
  assert (I : (forall i, (i < n)%nat -> fene_ok b2 i) /\ fFcut b2 = fc).
  { unfold fene_read in H2. destruct (fN b1 =? 0)%nat; [done|]. injection H2 as <-. simpl.
    match goal with |- context [fold_left fene_derive _ ?b0] => destruct (fene_loop (fN b1) b0) as (A & _ & _ & C & _) end.
    rewrite N1 in *. split; [exact A|exact C]. }
  revert I H. apply (run_inv _ (fun b => (forall i, (i < n)%nat -> fene_ok b i) /\ fFcut b = fc)). clear. intros b [nm i x] b' [I F] H. simpl in H. unfold fene_set in H.
  destruct nm; try done; destruct (i <? 2)%nat; try done; injection H as <-; (split; [|exact F]); intros j Hj;
    (destruct (decide (j = i)) as [->|Hne]; [apply fene_derive_ok|apply fene_derive_other; [done|]]);
    destruct (I j Hj) as [A1 A2 A3 A4 A5 A6]; split; simpl; rewrite ?pset_ne by done; auto.
Qed.

(** FeneBond, all histories: the energy is the FENE formula up to the length at which the
    tension reaches forceCutoff, then linear; the force is minus its derivative at every length,
    including the switch. *)
Theorem fene_bond_force_is_gradient :
  forall junk n k r0 fc ops b i kap R0,
  fene_life junk n k r0 fc ops = Ok b -> (i < n)%nat ->
  fene_get b BKappa i = Ok kap -> fene_get b BR0 i = Ok R0 -> 0 < kap -> 0 < R0 -> 0 < fc ->
  exists rl, 0 < rl < R0 /\ fene_tension kap R0 rl = fc /\
  (forall r, 0 < r < rl -> fene_energy b (r * r) i = fene_formula kap R0 r) /\
  (forall r, rl <= r -> fene_energy b (r * r) i = fene_formula kap R0 rl + fc * (r - rl)) /\
  (forall r, 0 < r -> fene_forceOverR b (r * r) i * r = if Rlt_dec r rl then - fene_tension kap R0 r else - fc) /\
  (forall r, 0 < r -> is_derive (fun r => fene_energy b (r * r) i) r (- (fene_forceOverR b (r * r) i * r))).
Proof.
  intros junk n k r0 fc ops b i kap R0 H Hi [= <-] [= <-] Hk HR Hf.
  apply fene_life_ok in H as [O F]. destruct (O i Hi) as [A1 A2 A3 A4 A5 A6]. clear O. rewrite F in A4.
  set (K := fK b i) in *. set (R0 := fR0 b i) in *. set (y := 1/2 * K * R0 / fc) in *. simpl in A4.
  assert (Py : 0 < y).
  { unfold y. apply Rdiv_lt_0_compat; [|done]. repeat apply Rmult_lt_0_compat; lra. }
  set (q := sqrt (1 + y * y)) in *.
  assert (Q2 : q * q = 1 + y * y) by (apply sqrt_def; nra).
  assert (Pq : 0 <= q) by apply sqrt_pos.
  set (t := q - y) in *. 
  assert (Ht : t * t + 2 * y * t - 1 = 0) by (unfold t; nra).
  assert (T0 : 0 < t) by (unfold t; nra). assert (T1 : t < 1) by nra.
  set (rl := R0 * t) in *.
  assert (Prl : 0 < rl) by (unfold rl; nra). assert (Lrl : rl < R0) by (unfold rl; nra).
  assert (Hy : 2 * y * fc = K * R0) by (unfold y; field; lra).
  assert (Gpos : forall r, 0 < r <= rl -> 0 < 1 - (r / R0) ^ 2).
  { intros r [R1 R2]. assert (U : r / R0 <= t).
    { apply Rmult_le_reg_r with R0; [done|]. field_simplify; [|lra]. unfold rl in R2. lra. }
    assert (V : 0 < r / R0) by (apply Rdiv_lt_0_compat; done). nra. }
  assert (TN : fene_tension K R0 rl = fc).
  { unfold fene_tension. replace (rl / R0) with t by (unfold rl; field; lra).
    assert (G0 : 1 - t ^ 2 = 2 * y * t) by nra. rewrite G0. unfold rl.
    apply Rmult_eq_reg_r with (2 * y * t); [|nra]. field_simplify; [|nra]. nra. }
  assert (E1 : forall r, 0 < r < rl -> fene_energy b (r * r) i = fene_formula K R0 r).
  { intros r Hr. unfold fene_energy. rewrite A5, A4. destruct (Rlt_dec (r * r) (rl * rl)); [|nra].
    rewrite A3, A2. unfold fene_formula. replace (1 - (r / R0) ^ 2) with (1 - r * r * (1 / (R0 * R0))) by (field; lra).
    field. }
  assert (EC : fEcut b i = fene_formula K R0 rl).
  { rewrite A6, A5, A4, A3, A2. unfold fene_formula.
    replace (1 - (rl / R0) ^ 2) with (1 - rl * rl * (1 / (R0 * R0))) by (field; lra). field. }
  assert (E2 : forall r, rl <= r -> fene_energy b (r * r) i = fene_formula K R0 rl + fc * (r - rl)).
  { intros r Hr. unfold fene_energy. rewrite A5, A4. destruct (Rlt_dec (r * r) (rl * rl)); [nra|].
    by rewrite EC, F, sqrt_square by lra. }
  assert (FF : forall r, 0 < r -> fene_forceOverR b (r * r) i * r = if Rlt_dec r rl then - fene_tension K R0 r else - fc).
  { intros r Hr. unfold fene_forceOverR. rewrite A5, A4, F.
    destruct (Rlt_dec (r * r) (rl * rl)) as [L|L], (Rlt_dec r rl) as [L'|L']; try nra.
    - rewrite A2. unfold fene_tension. fold K.
      assert (g : 0 < 1 - (r / R0) ^ 2) by (apply Gpos; lra).
      replace (1 - r * r * (1 / (R0 * R0))) with (1 - (r / R0) ^ 2) by (field; lra).
      field. split; [lra|]. apply Rgt_not_eq. replace (R0 ^ 2 - r ^ 2) with (R0 ^ 2 * (1 - (r / R0) ^ 2)) by (field; lra). apply Rmult_lt_0_compat; [by apply pow_lt|done].
    - rewrite sqrt_square by lra. field. lra. }
  assert (D : forall r, 0 < r <= rl -> is_derive (fene_formula K R0) r (fene_tension K R0 r)).
  { intros r Hr. pose proof (Gpos r Hr) as g. unfold fene_formula. auto_derive.
    - replace (r * / R0 * (r * / R0 * 1)) with ((r / R0) ^ 2) by (field; lra). lra.
    - unfold fene_tension. field. split; [lra|].
      apply Rgt_not_eq. replace (R0 ^ 2 - r ^ 2) with (R0 ^ 2 * (1 - (r / R0) ^ 2)) by (field; lra). apply Rmult_lt_0_compat; [by apply pow_lt|done]. }
  assert (DL : forall r, is_derive (fun r => fene_formula K R0 rl + fc * (r - rl)) r fc).
  { intros r. auto_derive; [done|ring]. }
  exists rl. split; [done|]. split; [done|]. split; [done|]. split; [done|]. split; [done|].
  intros r Hr. rewrite FF by done. destruct (Rlt_dec r rl) as [L|L]; rewrite Ropp_involutive.
  - apply (is_derive_between 0 rl _ _ _ (fene_formula K R0)); [lra|auto|]. apply D. lra.
  - assert (L' : rl <= r) by lra. destruct (Rle_lt_or_eq_dec _ _ L') as [G|<-].
    + apply (is_derive_between rl (r + 1) _ _ _ (fun r => fene_formula K R0 rl + fc * (r - rl))); [lra| |apply DL].
      intros z Hz. apply E2. lra.
    + apply (is_derive_glue 0 (rl + 1) _ _ _ (fene_formula K R0) (fun r => fene_formula K R0 rl + fc * (r - rl))).
      * lra.
      * rewrite <- TN. apply D. lra.
      * apply DL.
      * ring.
      * auto.
      * intros z Hz. apply E2. lra.
Qed.

(** CompositeBond: the gradient relation holds wherever it holds of both parts.  The full
    statement (all lengths, any pair class) fails: [composite_bond_refuted]. *)
Theorem composite_bond_force_is_gradient_partial :
  forall bondE bondF pairE pairF (i : nat) r,
  is_derive (fun r => bondE (r * r) i) r (- (bondF (r * r) i * r)) ->
  is_derive (fun r => pairE (r * r) 0%nat 0%nat) r (- (pairF (r * r) 0%nat 0%nat * r)) ->
  is_derive (fun r => composite_energy bondE pairE (r * r) i) r
     (- (composite_forceOverR bondF pairF (r * r) i * r)).
Proof.
  intros bondE bondF pairE pairF i r HB HP. unfold composite_energy, composite_forceOverR.
  pose proof (is_derive_plus (V := R_NormedModule) _ _ _ _ _ HB HP) as D.
  refine (eq_ind _ (is_derive _ r) D _ _). unfold plus; simpl. ring.
Qed.

(** CompositeBond<HarmonicBond, LJPair> beyond the Lennard-Jones cutoff: energy flat, force not. *)
Theorem composite_bond_refuted :
  forall n k l bops b junk eps sig cut p i r,
  hb_life n k l bops = Ok b -> lj_life junk 1 eps sig cut [] = Ok p ->
  let e := eps 0%nat 0%nat in let s := sig 0%nat 0%nat in let rc := cut 0%nat 0%nat in
  e <> 0 -> 0 < s -> 0 < rc -> rc < r -> 2 * s ^ 6 <> r ^ 6 ->
  ~ is_derive (fun r => composite_energy (hb_energy b) (lj_energy p) (r * r) i) r
     (- (composite_forceOverR (hb_forceOverR b) (lj_forceOverR p) (r * r) i * r)).
Proof.
  intros n k l bops b junk eps sig cut p i r HB H e s rc He Hs Hc Hr Hne D.
  assert (Pr : 0 < r) by lra.
  destruct (harmonic_bond_force_is_gradient _ _ _ _ _ i _ _ r HB eq_refl eq_refl Pr) as [_ DB].
  pose proof (lj_life_reach _ _ _ _ _ _ _ H) as [Rn Rc Ro].
  unfold lj_life in H. apply obind_Ok in H as (p1 & Hn & H). apply obind_Ok in H as (p0 & Hrd & H).
  injection H as ->.
  assert (S : (let? p := lj_setNAtomType (lj_new junk) 1 in lj_read p eps sig cut) = Ok p) by by rewrite Hn.
  assert (L : (0 < 1)%nat) by lia.
  apply lj_start in S as [_ S]. destruct (S 0 0 L L)%nat as (E1 & E2 & _). destruct (Ro 0 0 L L)%nat as [O1 O2 O3].
  rewrite (Rc 0 0 L L)%nat in O2. rewrite E2 in O1. rewrite E1 in O3. fold rc in O2. fold s in O1. fold e in O3.
  assert (DP : is_derive (fun r => lj_energy p (r * r) 0%nat 0%nat) r 0).
  { apply (is_derive_between rc (r + 1) _ _ _ (fun _ => 0)); [lra| |apply (is_derive_const (V := R_NormedModule))].
    intros y Hy. unfold lj_energy. rewrite O2. destruct (Rlt_dec (y * y) (rc * rc)); [nra|done]. }
  pose proof (is_derive_plus (V := R_NormedModule) _ _ _ _ _ DB DP) as DS.
  pose proof (is_derive_unique _ _ _ D) as U1. pose proof (is_derive_unique _ _ _ DS) as U2.
  pose proof (eq_trans (eq_sym U1) U2) as U. unfold composite_forceOverR, plus in U; simpl in U.
  assert (Z : lj_forceOverR p (r * r) 0 0 * r = 0) by lra. clear - Z O1 O3 He Hs Pr Hne.
  unfold lj_forceOverR in Z. rewrite O1, O3 in Z.
  assert (Y : 24 * e * (2 * s ^ 6 - r ^ 6) * s ^ 6 / r ^ 13 = 0).
  { rewrite <- Z. field. lra. }
  revert Y. unfold Rdiv. assert (P13 : 0 < r ^ 13) by (apply pow_lt; done).
  assert (P6 : 0 < s ^ 6) by (apply pow_lt; done).
  repeat apply Rmult_integral_contrapositive_currified; try lra.
  apply Rinv_neq_0_compat. lra.
Qed.

(** Examples. *)
Example hb_life_ex : exists b, hb_life 2 (fun _ => 3) (fun _ => 1) (BondSet BKappa 1 5 :: nil) = Ok b /\
  hb_get b BKappa 1 = Ok 5 /\ hb_get b BLength 1 = Ok 1.
Proof. eexists. split; [reflexivity|]. split; reflexivity. Qed.
Example l0_life_ex : exists b, l0_life 1 (fun _ => 3) (BondSet BKappa 0 5 :: nil) = Ok b /\ l0_get b BKappa 0 = Ok 5.
Proof. eexists. split; reflexivity. Qed.
Example fene_life_ex : exists b, fene_life 9 2 (fun _ => 30) (fun _ => 3/2) 100 (BondSet BR0 1 2 :: nil) = Ok b /\
  fene_get b BKappa 1 = Ok 30 /\ fene_get b BR0 1 = Ok 2.
Proof. eexists. split; [reflexivity|]. split; reflexivity. Qed.
Example composite_ex : exists b p,
  hb_life 1 (fun _ => 3) (fun _ => 1) [] = Ok b /\
  lj_life (LJ (fun _ _ => 0) (fun _ _ => 0) (fun _ _ => 0) (fun _ _ => 0) (fun _ _ => 0) (fun _ _ => 0) (fun _ _ => 0) 0 0 false)
     1 (fun _ _ => 1) (fun _ _ => 1) (fun _ _ => 2) [] = Ok p /\ 2 < 3 /\ 2 * 1 ^ 6 <> 3 ^ 6.
Proof. eexists _, _. split; [reflexivity|]. split; [reflexivity|]. lra. Qed.

Print Assumptions harmonic_bond_force_is_gradient.
Print Assumptions harmonic_bond_get_reports.
Print Assumptions harmonicL0_bond_force_is_gradient.
Print Assumptions fene_bond_force_is_gradient.
Print Assumptions composite_bond_force_is_gradient_partial.
Print Assumptions composite_bond_refuted.
