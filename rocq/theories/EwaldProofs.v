(** The waves generated by makeWaves, and the tables of phase factors. *)
From Coq Require Import Reals Lra.
From Coquelicot Require Import Coquelicot.
From stdpp Require Import gmap.
From Verif Require Import Base Vec3 BoxSpec OrthoModel OrthoSpec OrthoProofs OrthoProps MonoModel MonoSpec MonoProofs MonoProps.
From Verif Require Import SpeciesModel EnergySpec EnergyProofs EwaldModel EwaldSpec.
From Coq Require Import Reals Lra.
Local Open Scope R_scope.

(** * Boxes *)
Record dual_box (kb : kbox) : Prop := {
  db_dual : forall i j, (i < 3)%nat -> (j < 3)%nat -> vdot (vget (kBrav kb) i) (vget (kRecip kb) j) = if Nat.eqb i j then 2 * PI else 0;
  db_vol : kVol kb = triple (kBrav kb);
  db_pos : 0 < kVol kb;
  db_gen : forall r, combo (kBrav kb) (kGen kb r) = r
}.

Lemma ewald_dual kb : ewald_box kb -> dual_box kb.
Proof.
  intros [(b & (ops & Ho & ->) & ->)|(b & (ops & Ho & ->) & ->)].
  - destruct (ortho_basis_dual ops Ho) as (_ & _ & D & V & P & _). split; [done..|]. intros r. pose proof (owf_box ops Ho) as W.
    cbn [kBrav kGen ortho_kb]. pose proof (w_pos _ _ _ W) as (Px & Py & Pz). unfold cartToGen, combo. rewrite (w_brav _ _ _ W), (w_inv _ _ _ W). unfold diag, vadd, vscale.
    destruct r as [r0 r1 r2]. cbn [vx vy vz vget]. f_equal; field; lra.
  - destruct (mono_basis_dual ops Ho) as (_ & _ & D & V & P & _). split; [done..|]. intros r. pose proof (mwf_box ops Ho) as W.
    cbn [kBrav kGen mono_kb]. pose proof (m_pos _ _ _ W) as (Px & Py & Pz). unfold mono_cartToGen, combo. rewrite (m_brav _ _ _ W), (m_inv _ _ _ W), (m_c3 _ _ _ W).
    unfold vadd, vscale. destruct r as [r0 r1 r2]. cbn [vx vy vz]. f_equal; field; lra.
Qed.

Lemma dot_combo u a n : vdot u (combo a n) = vx n * vdot u (vx a) + vy n * vdot u (vy a) + vz n * vdot u (vz a).
Proof. unfold combo, vadd, vscale, vdot. cbn [vx vy vz]. ring. Qed.
Lemma vdot_comm u v : vdot u v = vdot v u. Proof. unfold vdot. ring. Qed.

Section Dual.
  Context (kb : kbox) (D : dual_box kb).
  Lemma dual_index n i : (i < 3)%nat -> vdot (vget (kBrav kb) i) (wavevector kb n) = 2 * PI * IZR (vget n i).
  Proof using D.
    intros Hi. unfold wavevector, lattice_vector. rewrite dot_combo.
    pose proof (db_dual _ D i 0 Hi ltac:(lia)) as E0. pose proof (db_dual _ D i 1 Hi ltac:(lia)) as E1. pose proof (db_dual _ D i 2 Hi ltac:(lia)) as E2.
    cbn [vget] in E0, E1, E2. rewrite E0, E1, E2. destruct n as [n0 n1 n2], i as [|[|[|]]]; cbn [vget vmap vx vy vz Nat.eqb]; try lia; ring.
  Qed.
  (** The phase of an atom, from scaled and from Cartesian coordinates. *)
  Lemma phase n r : vdot (kGen kb r) (vmap IZR n) * (2 * PI) = vdot (wavevector kb n) r.
  Proof using D.
    rewrite <- (db_gen _ D r) at 2. rewrite dot_combo.
    pose proof (dual_index n 0 ltac:(lia)) as E0. pose proof (dual_index n 1 ltac:(lia)) as E1. pose proof (dual_index n 2 ltac:(lia)) as E2.
    cbn [vget] in E0, E1, E2. rewrite !(vdot_comm (wavevector kb n)), E0, E1, E2. unfold vdot, vmap. cbn [vx vy vz]. ring.
  Qed.
End Dual.

Lemma cauchy u v : vdot u v * vdot u v <= normSq u * normSq v.
Proof.
  destruct u as [a b c], v as [x y z]. unfold normSq, vdot. cbn [vx vy vz].
  assert (0 <= (a * y - b * x) ^ 2) by apply pow2_ge_0. assert (0 <= (a * z - c * x) ^ 2) by apply pow2_ge_0. assert (0 <= (b * z - c * y) ^ 2) by apply pow2_ge_0. nra.
Qed.
Lemma normSq_nonneg u : 0 <= normSq u.
Proof. unfold normSq, vdot. nra. Qed.

Lemma zceil_ge x : x <= IZR (zceil x).
Proof. unfold zceil. rewrite opp_IZR. pose proof (base_Int_part (- x)). lra. Qed.
Lemma zceil_lt x : IZR (zceil x) < x + 1.
Proof. unfold zceil. rewrite opp_IZR. pose proof (base_Int_part (- x)). lra. Qed.

(** * The loops of makeWaves *)
Lemma seqZ_snoc lo (n : Z) : (0 <= n)%Z -> seqZ lo (n + 1) = seqZ lo n ++ [(lo + n)%Z].
Proof. intros. rewrite seqZ_app by lia. done. Qed.

Lemma vstep k b q0 : vadd (vadd (vscale (IZR (k - 1)) b) q0) b = vadd (vscale (IZR k) b) q0.
Proof. rewrite minus_IZR. unfold vadd, vscale. cbn [vx vy vz]. f_equal; ring. Qed.

Lemma wave_loop_eq b q0 lo hi body w :
  wave_loop b q0 lo hi body w = fold_left (fun w k => body k (vadd (vscale (IZR k) b) q0) w) (seqZ lo (hi - lo + 1)) w.
Proof.
  unfold wave_loop. generalize (hi - lo + 1)%Z as m. clear hi. intros m.
  destruct (decide (m <= 0)%Z) as [Hm|Hm]. { rewrite seqZ_nil by lia. done. }
  rewrite <- (Z2Nat.id m) by lia. generalize (Z.to_nat m) as n. clear m Hm. intros n. revert lo w. induction n as [|n IH]; intros lo w; [done|].
  rewrite seqZ_cons by lia. replace (Z.pred (Z.of_nat (S n))) with (Z.of_nat n) by lia. cbn [fold_left fst snd]. rewrite vstep.
  replace (vadd (vscale (IZR lo) b) q0) with (vadd (vscale (IZR (Z.succ lo - 1)) b) q0) at 1 by (repeat f_equal; lia).
  apply IH.
Qed.

Lemma fold_flat {A B S} (f : S -> B -> S) (g : A -> list B) l s :
  fold_left f (flat_map g l) s = fold_left (fun s x => fold_left f (g x) s) l s.
Proof. revert s. induction l as [|x l IH]; intros s; [done|]. cbn [flat_map fold_left]. by rewrite fold_left_app, IH. Qed.
Lemma fold_ext {A S} (f g : S -> A -> S) l s : (forall s x, f s x = g s x) -> fold_left f l s = fold_left g l s.
Proof. intros H. revert s. induction l as [|x l IH]; intros s; [done|]. cbn [fold_left]. by rewrite H. Qed.
Lemma fold_map {A B S} (f : S -> B -> S) (g : A -> B) l s : fold_left f (map g l) s = fold_left (fun s x => f s (g x)) l s.
Proof. revert s. induction l as [|x l IH]; intros s; [done|]. cbn [map fold_left]. apply IH. Qed.

Section Waves.
  Context (e : ewald) (kb : kbox) (kc : R).
  Local Notation M := (maxK kb kc).
  (** The index vectors visited. *)
  Definition visited : list (vec3 Z) :=
    flat_map (fun k0 => flat_map (fun k1 => map (fun k2 => V3 k0 k1 k2)
      (seqZ (if decide (k0 = 0%Z /\ k1 = 0%Z) then 1 else - M 2) (M 2 - (if decide (k0 = 0%Z /\ k1 = 0%Z) then 1 else - M 2) + 1)))
      (seqZ (if decide (k0 = 0%Z) then 0 else - M 1) (M 1 - (if decide (k0 = 0%Z) then 0 else - M 1) + 1))) (seqZ 0 (M 0 - 0 + 1)).

  Lemma loops_eq w : loop_0 e kb kc w = fold_left (fun w k => wave_body e kc k (wavevector kb k) w) visited w.
  Proof.
    unfold loop_0. rewrite wave_loop_eq. unfold visited. rewrite fold_flat. apply fold_ext. intros w0 k0.
    unfold loop_1. rewrite wave_loop_eq. rewrite fold_flat. apply fold_ext. intros w1 k1.
    unfold loop_2. rewrite wave_loop_eq. rewrite fold_map. apply fold_ext. intros w2 k2. f_equal.
    unfold wavevector, lattice_vector, combo, vmap, vadd, vscale, OrthoModel.vzero. cbn [vx vy vz]. f_equal; ring.
  Qed.

  Definition kept (k : vec3 Z) : bool := if Rle_dec (normSq (wavevector kb k)) (kc * kc) then true else false.
  Definition in_ranges (w : waves) (k : vec3 Z) : Prop :=
    (vx k <= wU0 w /\ wB1 w <= vy k <= wU1 w /\ wB2 w <= vz k <= wU2 w)%Z.
  Lemma body_fold l : forall w, let w' := fold_left (fun w k => wave_body e kc k (wavevector kb k) w) l w in
    wInt w' = wInt w ++ List.filter kept l /\
    wKsq w' = wKsq w ++ map (fun k => normSq (wavevector kb k)) (List.filter kept l) /\
    wG w' = wG w ++ map (fun k => kSpacePotential e (normSq (wavevector kb k))) (List.filter kept l) /\
    (wU0 w <= wU0 w' /\ wB1 w' <= wB1 w /\ wU1 w <= wU1 w' /\ wB2 w' <= wB2 w /\ wU2 w <= wU2 w')%Z /\
    (forall k, k ∈ List.filter kept l -> in_ranges w' k).
  Proof.
    induction l as [|k l IH]; intros w; cbn [fold_left].
    - cbn [List.filter map]. rewrite !app_nil_r. repeat split; try lia; intros; exfalso; by eapply elem_of_nil.
    - destruct (IH (wave_body e kc k (wavevector kb k) w)) as (I1 & I2 & I3 & I4 & I5).
      assert (HK : kept k = if Rle_dec (normSq (wavevector kb k)) (kc * kc) then true else false) by done.
      cbn [List.filter]. unfold wave_body in *. destruct (Rle_dec (normSq (wavevector kb k)) (kc * kc)) as [Hk|Hk]; rewrite HK.
      + cbn [wInt wKsq wG wU0 wB1 wU1 wB2 wU2] in *. rewrite I1, I2, I3. rewrite <- !app_assoc. cbn [map app].
        split; [done|]. split; [done|]. split; [done|]. split; [lia|].
        intros k' [->|Hk']%elem_of_cons; [|by apply I5]. unfold in_ranges. cbn [wU0 wB1 wU1 wB2 wU2] in *. lia.
      + done.
  Qed.

  Lemma elem_visited k : k ∈ visited <->
    (0 <= vx k <= M 0 /\ (if decide (vx k = 0) then 0 else - M 1) <= vy k <= M 1 /\
     (if decide (vx k = 0 /\ vy k = 0) then 1 else - M 2) <= vz k <= M 2)%Z.
  Proof.
    unfold visited. destruct k as [a b c]. rewrite elem_of_list_In, in_flat_map. cbn [vx vy vz]. split.
    - intros (k0 & H0 & H). apply in_flat_map in H as (k1 & H1 & H). apply in_map_iff in H as (k2 & E & H2). injection E as -> -> ->.
      apply elem_of_list_In, elem_of_seqZ in H0, H1, H2. lia.
    - intros (H0 & H1 & H2). exists a. split; [apply elem_of_list_In, elem_of_seqZ; lia|]. apply in_flat_map. exists b.
      split; [apply elem_of_list_In, elem_of_seqZ; lia|]. apply in_map_iff. exists c. split; [done|]. apply elem_of_list_In, elem_of_seqZ. lia.
  Qed.
  Lemma nodup_flat {A B} (g : A -> list B) l : NoDup l -> (forall x, NoDup (g x)) -> (forall x y z, z ∈ g x -> z ∈ g y -> x = y) -> NoDup (flat_map g l).
  Proof.
    intros Hl Hg Hd. induction Hl as [|x l Hx Hl IH]; [constructor|]. cbn [flat_map]. apply NoDup_app. split; [apply Hg|]. split; [|done].
    intros z Hz Hz2. apply elem_of_list_In, in_flat_map in Hz2 as (y & Hy & Hz2). apply elem_of_list_In in Hy, Hz2.
    by rewrite (Hd x y z Hz Hz2) in Hx.
  Qed.
  Lemma nodup_visited : NoDup visited.
  Proof.
    unfold visited. apply nodup_flat; [apply NoDup_seqZ| |].
    - intros k0. apply nodup_flat; [apply NoDup_seqZ| |].
      + intros k1. change (NoDup ((fun k2 => V3 k0 k1 k2) <$> seqZ (if decide (k0 = 0%Z ∧ k1 = 0%Z) then 1 else - M 2)
          (M 2 - (if decide (k0 = 0%Z ∧ k1 = 0%Z) then 1 else - M 2) + 1)%Z)).
        apply NoDup_fmap; [|apply NoDup_seqZ]. by intros x y [= ->].
      + intros x y z Hx Hy. apply elem_of_list_In, in_map_iff in Hx as (k2 & <- & _). apply elem_of_list_In, in_map_iff in Hy as (k3 & [= <-] & _). done.
    - intros x y z Hx Hy. apply elem_of_list_In, in_flat_map in Hx as (k1 & _ & Hx). apply in_map_iff in Hx as (k2 & <- & _).
      apply elem_of_list_In, in_flat_map in Hy as (k3 & _ & Hy). by apply in_map_iff in Hy as (k4 & [= <-] & _).
  Qed.

  Context (D : dual_box kb) (Hkc : 0 < kc).
  (** A wave within the cutoff has indices not larger than maxK. *)
  Lemma index_bound n i : (i < 3)%nat -> normSq (wavevector kb n) <= kc * kc -> (- M i <= vget n i <= M i)%Z.
  Proof using D Hkc.
    intros Hi Hn. pose proof PI_RGT_0 as HPI. pose proof (dual_index _ D n i Hi) as E. pose proof (cauchy (vget (kBrav kb) i) (wavevector kb n)) as C.
    rewrite E in C. unfold maxK. set (s := sqrt (normSq (vget (kBrav kb) i))). assert (Hs : s * s = normSq (vget (kBrav kb) i)) by apply sqrt_sqrt, normSq_nonneg.
    assert (Hs0 : 0 <= s) by apply sqrt_pos. pose proof (zceil_ge (kc * s / (2 * PI))) as HZ.
    assert (B : Rabs (2 * PI * IZR (vget n i)) <= kc * s).
    { apply Rsqr_incr_0_var; [|nra]. rewrite <- Rsqr_abs. unfold Rsqr. rewrite <- Hs in C. eapply Rle_trans; [exact C|].
      replace (kc * s * (kc * s)) with (s * s * (kc * kc)) by ring. apply Rmult_le_compat_l; [nra|done]. }
    rewrite Rabs_mult, (Rabs_right (2 * PI)) in B by lra.
    assert (B2 : Rabs (IZR (vget n i)) <= IZR (zceil (kc * s / (2 * PI)))).
    { eapply Rle_trans; [|exact HZ]. apply (Rmult_le_reg_l (2 * PI)); [lra|]. replace (2 * PI * (kc * s / (2 * PI))) with (kc * s) by (field; lra). done. }
    apply Rabs_def2 in B2 as _ || idtac. rewrite <- abs_IZR in B2. apply le_IZR in B2. lia.
  Qed.
  Lemma maxK_pos i : (i < 3)%nat -> (0 < M i)%Z.
  Proof using D Hkc.
    intros Hi. apply lt_IZR. unfold maxK. eapply Rlt_le_trans; [|apply zceil_ge]. pose proof PI_RGT_0.
    apply Rdiv_lt_0_compat; [|lra]. apply Rmult_lt_0_compat; [done|]. apply sqrt_lt_R0.
    destruct (Rle_lt_or_eq_dec 0 _ (normSq_nonneg (vget (kBrav kb) i))) as [?|E]; [done|]. exfalso.
    pose proof (db_dual _ D i i Hi Hi) as HD. rewrite Nat.eqb_refl in HD. pose proof (cauchy (vget (kBrav kb) i) (vget (kRecip kb) i)) as HC.
    rewrite HD, <- E in HC. nra.
  Qed.

  (** One of n and -n. *)
  Definition half (n : vec3 Z) : Prop := (0 < vx n \/ vx n = 0 /\ (0 < vy n \/ vy n = 0 /\ 0 < vz n))%Z.
  Lemma half_or n : n <> V3 0%Z 0%Z 0%Z -> half n \/ half (vneg n).
  Proof.
    destruct n as [a b c]. unfold half, vneg, vmap. cbn [vx vy vz]. intros H.
    destruct (decide (a = 0%Z)) as [->|]; [|lia]. destruct (decide (b = 0%Z)) as [->|]; [|lia]. destruct (decide (c = 0%Z)) as [->|]; [done|lia].
  Qed.
  Lemma half_not n : half n -> half (vneg n) -> False.
  Proof. destruct n as [a b c]. unfold half, vneg, vmap. cbn [vx vy vz]. lia. Qed.
  Lemma half_ne n : half n -> n <> V3 0%Z 0%Z 0%Z.
  Proof. unfold half. intros H ->. cbn [vx vy vz] in H. lia. Qed.

  Lemma kept_iff n : n ∈ List.filter kept visited <-> half n /\ normSq (wavevector kb n) <= kc * kc.
  Proof using D Hkc.
    rewrite elem_of_list_In, filter_In. rewrite <- elem_of_list_In, elem_visited. unfold kept.
    pose proof (maxK_pos 0 ltac:(lia)). pose proof (maxK_pos 1 ltac:(lia)). pose proof (maxK_pos 2 ltac:(lia)). split.
    - intros [H3 H4]. destruct (Rle_dec _ _) as [Hk|]; [|done]. split; [|done]. unfold half.
      destruct (decide (vx n = 0%Z)); repeat destruct (decide (_ /\ _)); lia.
    - intros [H3 Hk]. destruct (Rle_dec _ _) as [_|]; [|done]. split; [|done].
      pose proof (index_bound n 0 ltac:(lia) Hk) as B0. pose proof (index_bound n 1 ltac:(lia) Hk) as B1. pose proof (index_bound n 2 ltac:(lia) Hk) as B2.
      cbn [vget] in *. unfold half in H3. destruct (decide (vx n = 0%Z)), (decide (vx n = 0%Z /\ vy n = 0%Z)); lia.
  Qed.
End Waves.

Lemma wavevector_neg kb n : wavevector kb (vneg n) = vscale (-1) (wavevector kb n).
Proof. unfold wavevector, lattice_vector, combo, vneg, vmap, vadd, vscale. cbn [vx vy vz]. rewrite !opp_IZR. f_equal; ring. Qed.
Lemma normSq_neg kb n : normSq (wavevector kb (vneg n)) = normSq (wavevector kb n).
Proof. rewrite wavevector_neg. unfold normSq, vdot, vscale. cbn [vx vy vz]. ring. Qed.
Lemma vneg_vneg n : vneg (vneg n) = n.
Proof. destruct n as [a b c]. unfold vneg, vmap. cbn [vx vy vz]. f_equal; lia. Qed.

(** What makeWaves leaves behind. *)
Record waves_of (e : ewald) (kb : kbox) (kc : R) (w : waves) : Prop := {
  wo_nodup : NoDup (wInt w);
  wo_in : forall n, n ∈ wInt w <-> half n /\ normSq (wavevector kb n) <= kc * kc;
  wo_ksq : wKsq w = map (fun k => normSq (wavevector kb k)) (wInt w);
  wo_g : wG w = map (fun k => kSpacePotential e (normSq (wavevector kb k))) (wInt w);
  wo_rng : forall n, n ∈ wInt w -> in_ranges w n
}.

Lemma makeWaves_spec e kb kc : dual_box kb -> 0 < kc ->
  (exists w, makeWaves e kb kc = Ok w /\ waves_of e kb kc w /\ wInt w <> []) \/
  (makeWaves e kb kc = Throw /\ forall n, ~ in_cutoff kb kc n).
Proof.
  intros D Hkc. unfold makeWaves. rewrite !(bool_decide_true _) by (by apply maxK_pos; [..|lia]). cbn [check obind].
  rewrite loops_eq. set (w0 := Wv _ _ _ _ _ _ _ _). set (w := fold_left _ _ _).
  destruct (body_fold e kb kc (visited kb kc) w0) as (I1 & I2 & I3 & _ & I5). fold w in I1, I2, I3, I5. cbn [wInt wKsq wG w0 app] in I1, I2, I3.
  assert (W : waves_of e kb kc w).
  { split.
    - rewrite I1. apply NoDup_ListNoDup, List.NoDup_filter, NoDup_ListNoDup, nodup_visited.
    - intros n. rewrite I1. by apply kept_iff.
    - by rewrite I2, I1.
    - by rewrite I3, I1.
    - intros n. rewrite I1. apply I5. }
  destruct (wInt w) as [|k l] eqn:El.
  - right. cbn [length]. rewrite bool_decide_false by lia. split; [done|]. intros n [Hn Hc].
    destruct (half_or n Hn) as [H|H].
    + assert (X : n ∈ wInt w) by (by apply (wo_in _ _ _ _ W)). rewrite El in X. by apply elem_of_nil in X.
    + assert (X : vneg n ∈ wInt w) by (apply (wo_in _ _ _ _ W); split; [done|by rewrite normSq_neg]). rewrite El in X. by apply elem_of_nil in X.
  - left. exists w. assert (Hk : k ∈ wInt w) by (rewrite El; left). pose proof (wo_rng _ _ _ _ W k Hk) as R. pose proof (proj1 (wo_in _ _ _ _ W k) Hk) as [Hh _].
    unfold in_ranges in R. unfold half in Hh. cbn [length]. rewrite !bool_decide_true by lia. cbn [check obind]. split; [done|]. split; [done|]. by rewrite El.
Qed.
