(** The values an MdCoulombPotential keeps: they are those of the current box, parameters and positions as long as the box is
    not changed. *)
From Coq Require Import Reals Lra.
From Coquelicot Require Import Coquelicot.
From stdpp Require Import gmap.
From Verif Require Import Base Vec3 BoxSpec OrthoModel OrthoSpec OrthoProofs OrthoProps MonoModel MonoSpec MonoProofs MonoProps.
From Verif Require Import SpeciesModel SpeciesProofs PairListModel EnergyModel EnergySpec EnergyProofs MdModel MdSpec MdProofs GradSpec MdGradSpec MdGradProofs Deriv.
From Verif Require Import EwaldModel EwaldSpec EwaldProofs EwaldForces EwaldGrad EwaldStress EwaldMdModel EwaldMdSpec EwaldMdProofs.
From Coq Require Import Reals Lra.
Local Open Scope R_scope.

(** Calls that keep the box and set parameters to values that make sense. *)
Definition fair_call (c : co_call) : Prop :=
  match c with
  | CSet None v => 0 < v
  | CSet (Some NEps) v => v <> 0
  | CSet (Some NAlpha) v => 0 < v
  | CBox _ _ => False
  | _ => True
  end.

Section Kept.
  Context (atoms : list nat) (charge : nat -> R) (rsum : ewald -> kbox -> (nat -> vec3 R) -> R) (kb : kbox) (D : dual_box kb).

  Definition energy_at (s : coulomb) (x : R) : Prop :=
    forall L, all_waves kb (oKc s) L -> x = kspace_energy (eEps (oE s)) (eAlpha (oE s)) kb L atoms charge (oPos s).
  Definition stress_at (s : coulomb) (S : tensor) : Prop :=
    forall L E, all_waves kb (oKc s) L ->
      is_derive (fun t => kspace_energy (eEps (oE s)) (eAlpha (oE s)) (strained_cell E t (kBrav kb)) L atoms charge (fun a => strain E t (oPos s a))) 0
        (- (kVol kb * contract S E)).
  Record kept (s : coulomb) : Prop := {
    kp_box : oBox s = kb;
    kp_ok : ewald_ok (oE s);
    kp_kc : 0 < oKc s;
    kp_waves : forall w, oW s = Some w -> waves_of (oE s) kb (oKc s) w;
    kp_energy : forall x, oKE s = Some x -> energy_at s x;
    kp_stress : forall S, oKS s = Some S -> stress_at s S
  }.

  Lemma kept_unsetWaves s : kept s -> kept (co_unsetWaves s).
  Proof using Type. intros [H1 H2 H3 H4 H5 H6]. split; cbn [co_unsetWaves oE oKc oW oKE oKS oBox oPos]; try done. Qed.
  Lemma set_ok e n v : ewald_ok e -> match n with NEps => v <> 0 | NAlpha => 0 < v | NRc => True end -> ewald_ok (ew_set e n v).
  Proof using Type. intros [A B _ _ _ _] Hv. destruct n; split; cbn [ew_set ew_derive eEps eAlpha eRc eRcSq eCe eCf eCg]; done. Qed.
  Lemma need_kept s s' w : kept s -> co_need s = Ok (s', w) ->
    kept s' /\ waves_of (oE s) kb (oKc s) w /\ oE s' = oE s /\ oKc s' = oKc s /\ oPos s' = oPos s /\ oKE s' = oKE s /\ oKS s' = oKS s /\ oRE s' = oRE s.
  Proof using D.
    intros K. destruct K as [H1 H2 H3 H4 H5 H6]. unfold co_need. destruct (oW s) as [w0|] eqn:Ew.
    - intros [= <- <-]. split; [split; try done; by intros w ?; apply H4; congruence|]. split; [by apply H4|done].
    - intros (w0 & Hm & [= <- <-])%obind_Ok. rewrite H1 in Hm.
      destruct (makeWaves_spec (oE s) kb (oKc s) D H3) as [(w1 & E & W & _)|[E _]]; rewrite Hm in E; [|done]. injection E as <-.
      split; [|done]. split; cbn [oE oKc oW oKE oKS oBox oPos]; try done. by intros w [= <-].
  Qed.
  Lemma energy_kept s s' x : kept s -> co_energy atoms charge s = Ok (s', x) -> kept s' /\ energy_at s x.
  Proof using D.
    intros K. unfold co_energy. destruct (oKE s) as [x0|] eqn:Ex.
    - intros [= <- <-]. split; [done|]. by apply K.
    - intros ([s1 w] & Hn & (y & Hc & [= <- <-])%obind_Ok)%obind_Ok. destruct (need_kept _ _ _ K Hn) as ([H1 H2 H3 H4 H5 H6] & W & E1 & E2 & E3 & E4 & E5 & _).
      rewrite H1, E1, E3 in Hc.
      assert (HX : energy_at s y).
      { intros L HL. rewrite (energy_full (oE s) kb (oKc s) w L) in Hc; [by injection Hc|apply K|done..]. }
      split; [|done]. split; cbn [oE oKc oW oKE oKS oBox oPos]; try done. intros x [= <-]. unfold energy_at in *. cbn [oE oKc oPos]. by rewrite E1, E2, E3.
  Qed.
  Lemma stress_kept s s' S : kept s -> co_stress atoms charge s = Ok (s', S) -> kept s' /\ stress_at s S.
  Proof using D.
    intros K. unfold co_stress. destruct (oKS s) as [x0|] eqn:Ex.
    - intros [= <- <-]. split; [done|]. by apply K.
    - intros ([s1 w] & Hn & (y & Hc & [= <- <-])%obind_Ok)%obind_Ok. destruct (need_kept _ _ _ K Hn) as ([H1 H2 H3 H4 H5 H6] & W & E1 & E2 & E3 & E4 & E5 & _).
      rewrite H1, E1, E3 in Hc.
      assert (HX : stress_at s y).
      { intros L E HL. exact (stress_derive (oE s) kb (oKc s) w (kp_ok _ K) D W atoms charge (oPos s) L y HL Hc E). }
      split; [|done]. split; cbn [oE oKc oW oKE oKS oBox oPos]; try done. intros x [= <-]. unfold stress_at in *. cbn [oE oKc oPos]. by rewrite E1, E2, E3.
  Qed.
  Lemma call_kept s c s' : kept s -> fair_call c -> co_do atoms charge rsum s c = Ok s' -> kept s'.
  Proof using D.
    intros K Hf. destruct c as [[n|] v| | | | | | |pos|kb' pos]; cbn [co_do].
    - intros [= <-]. destruct K as [H1 H2 H3 H4 H5 H6]. split; cbn [co_set co_unsetWaves oE oKc oW oKE oKS oBox oPos]; try done.
      apply set_ok; [done|]. by destruct n.
    - intros [= <-]. destruct K as [H1 H2 H3 H4 H5 H6]. by split; cbn [co_set co_unsetWaves oE oKc oW oKE oKS oBox oPos].
    - unfold co_makeWaves. intros (w & Hm & [= <-])%obind_Ok. destruct K as [H1 H2 H3 H4 H5 H6]. rewrite H1 in Hm.
      destruct (makeWaves_spec (oE s) kb (oKc s) D H3) as [(w1 & E & W & _)|[E _]]; rewrite Hm in E; [|done]. injection E as <-.
      split; cbn [oE oKc oW oKE oKS oBox oPos]; try done. by intros w' [= <-].
    - intros [= <-]. by apply kept_unsetWaves.
    - intros [= <-]. destruct K as [H1 H2 H3 H4 H5 H6]. by split; cbn [co_unset oE oKc oW oKE oKS oBox oPos].
    - intros ([s1 x] & He & [= <-])%obind_Ok. by apply (energy_kept _ _ _ K He).
    - intros ([s1 x] & He & [= <-])%obind_Ok. by apply (stress_kept _ _ _ K He).
    - intros [= <-]. unfold co_rEnergy. destruct (oRE s); [done|]. destruct K as [H1 H2 H3 H4 H5 H6]. by split; cbn [fst oE oKc oW oKE oKS oBox oPos].
    - intros [= <-]. destruct K as [H1 H2 H3 H4 H5 H6]. by split; cbn [co_move oE oKc oW oKE oKS oBox oPos].
    - done.
  Qed.
  Lemma run_kept l : forall s s', kept s -> Forall fair_call l -> co_run atoms charge rsum s l = Ok s' -> kept s'.
  Proof using D.
    induction l as [|c l IH]; intros s s' K Hf; unfold co_run; cbn [foldM]; [by intros [= <-]|].
    apply Forall_cons in Hf as [Hc Hl]. intros (s1 & H1 & H2)%obind_Ok. apply (IH s1); [by eapply call_kept|done|done].
  Qed.
  Lemma init_kept eps alpha rc kc pos : eps <> 0 -> 0 < alpha -> 0 < kc -> kept (co_init eps alpha rc kc kb pos).
  Proof using Type. intros. split; cbn [co_init oE oKc oW oKE oKS oBox oPos]; try done; by apply read_ok. Qed.
End Kept.

(** * A box changed under the waves *)
Definition cube_kb (l : R) : kbox := ortho_kb (box [SetCub l]).
Lemma cube_a_box l : 0 < l -> a_box (box [SetCub l]).
Proof. intros Hl. exists [SetCub l]. split; [|done]. apply Forall_cons. split; [done|]. by apply Forall_nil. Qed.
Lemma cube_wave l n : 0 < l -> wavevector (cube_kb l) n = vscale (2 * PI / l) (vmap IZR n).
Proof.
  intros Hl. assert (W : owf (box [SetCub l]) (edges [SetCub l]) (system [SetCub l])) by (apply owf_box; apply Forall_cons; split; [done|by apply Forall_nil]).
  unfold wavevector, lattice_vector, cube_kb. cbn [ortho_kb kRecip]. rewrite (w_recip _ _ _ W). unfold edges. cbn [last].
  destruct n as [a b c]. unfold combo, vmap, diag, vadd, vscale. cbn [vget vx vy vz]. f_equal; field; lra.
Qed.
Definition unit_charge : nat -> R := fun _ => 1.
Definition origin : nat -> vec3 R := fun _ => V3 0 0 0.

Lemma modes_origin k : cmode [0%nat] unit_charge origin k = 1 /\ smode [0%nat] unit_charge origin k = 0.
Proof.
  unfold cmode, smode, sum_over, unit_charge, origin. cbn [map Rsum]. replace (vdot k (V3 0 0 0)) with 0 by (unfold vdot; cbn [vx vy vz]; ring).
  rewrite cos_0, sin_0. split; ring.
Qed.
Lemma density_origin k : density2 [0%nat] unit_charge origin k = 1.
Proof.
  destruct (modes_origin k) as [E1 E2]. unfold cmode in E1. unfold smode in E2. unfold density2. rewrite E1, E2. ring.
Qed.
Lemma cube_dual l : 0 < l -> dual_box (cube_kb l).
Proof. intros Hl. apply ewald_dual. left. eexists. split; [by apply cube_a_box|done]. Qed.

(** The energy of a unit charge at the origin with waves of another cube. *)
Lemma stale_energy e l1 l2 kc w : 0 < l1 -> 0 < l2 -> ewald_ok e -> waves_of e (cube_kb l1) kc w ->
  computeEnergy e (cube_kb l2) [0%nat] unit_charge w origin = Ok
    (/ kVol (cube_kb l2) * sum_over (wInt w) (fun n => influence (eEps e) (eAlpha e) (normSq (wavevector (cube_kb l1) n))) - eAlpha e / (4 * PI * sqrt PI * eEps e)).
Proof.
  intros H1 H2 O W. unfold computeEnergy. rewrite (kcharge_eq _ _ (cube_dual l2 H2)), (wo_g _ _ _ _ W).
  rewrite (foldM_index _ (fun s n => s + influence (eEps e) (eAlpha e) (normSq (wavevector (cube_kb l1) n))) (wInt w) 0).
  2:{ intros i n s Hi. rewrite !(aget_map _ _ _ _ Hi). cbn [obind fst snd]. destruct (modes_origin (wavevector (cube_kb l2) n)) as [-> ->].
      rewrite kpot_influence by done. f_equal. ring. }
  cbn [obind fold_left]. f_equal.
  assert (HF : forall l s (f : vec3 Z -> R), fold_left (fun s n => s + f n) l s = s + sum_over l f).
  { induction l as [|n l IH]; intros s f; cbn [fold_left]; [by rewrite sum_nil, Rplus_0_r|]. rewrite IH, sum_cons. ring. }
  rewrite HF. unfold unit_charge. rewrite (Rmult_comm (4 * sqrt PI) PI), <- (Rmult_assoc PI), (Rmult_comm PI 4). unfold Rdiv. ring.
Qed.
Lemma sum_lt {A} (l : list A) f g : l <> [] -> (forall x, x ∈ l -> f x < g x) -> sum_over l f < sum_over l g.
Proof.
  induction l as [|x l IH]; intros Hl H; [done|]. rewrite !sum_cons. assert (Hx : f x < g x) by (apply H; left).
  destruct l as [|z l]; [rewrite !sum_nil; lra|]. assert (sum_over (z :: l) f < sum_over (z :: l) g) by (apply IH; [done|]; intros y Hy; apply H; by right). lra.
Qed.
Lemma influence_lt eps alpha x y : 0 < eps -> 0 < alpha -> 0 < x -> x < y -> influence eps alpha y < influence eps alpha x.
Proof.
  intros He Ha Hx Hy. unfold influence, Rdiv.
  assert (E1 : exp (- y * / (4 * alpha ^ 2)) < exp (- x * / (4 * alpha ^ 2))).
  { apply exp_increasing. apply Rmult_lt_compat_r; [|lra]. apply Rinv_0_lt_compat. nra. }
  assert (E2 : / (eps * y) < / (eps * x)) by (apply Rinv_lt_contravar; [apply Rmult_lt_0_compat; nra|nra]).
  pose proof (exp_pos (- y * / (4 * alpha ^ 2))). assert (0 < / (eps * y)) by (apply Rinv_0_lt_compat; nra).
  apply Rlt_trans with (exp (- y * / (4 * alpha ^ 2)) * / (eps * x)); [by apply Rmult_lt_compat_l|]. apply Rmult_lt_compat_r; [|done]. lra.
Qed.
Lemma normSq_int n : exists z : Z, normSq (vmap IZR n) = IZR z.
Proof. exists (vx n * vx n + vy n * vy n + vz n * vz n)%Z. unfold normSq, vdot, vmap. cbn [vx vy vz]. by rewrite !plus_IZR, !mult_IZR. Qed.
Lemma cube_normSq l n : 0 < l -> normSq (wavevector (cube_kb l) n) = (2 * PI / l) * (2 * PI / l) * normSq (vmap IZR n).
Proof. intros Hl. rewrite cube_wave by done. unfold normSq, vdot, vscale. cbn [vx vy vz]. ring. Qed.

Lemma stale_box rsum : exists s s' x,
  co_run [0%nat] unit_charge rsum (co_init 1 1 1 1 (cube_kb (2 * PI)) origin) [CMake; CBox (cube_kb (2 * PI * (6/5))) origin] = Ok s /\
  co_energy [0%nat] unit_charge s = Ok (s', x) /\
  (exists L, all_waves (oBox s) (oKc s) L) /\
  forall L, all_waves (oBox s) (oKc s) L -> x < kspace_energy (eEps (oE s)) (eAlpha (oE s)) (oBox s) L [0%nat] unit_charge (oPos s).
Proof.
  pose proof PI_RGT_0 as HP. assert (H1 : 0 < 2 * PI) by lra. assert (H2 : 0 < 2 * PI * (6/5)) by lra. set (e := ew_read 1 1 1).
  assert (O : ewald_ok e) by (apply read_ok; lra). set (k1 := cube_kb (2 * PI)). set (k2 := cube_kb (2 * PI * (6/5))).
  assert (N1 : forall n, normSq (wavevector k1 n) = normSq (vmap IZR n)) by (intros n; unfold k1; rewrite cube_normSq by done; field; lra).
  assert (N2 : forall n, normSq (wavevector k2 n) = 25/36 * normSq (vmap IZR n)) by (intros n; unfold k2; rewrite cube_normSq by done; field; lra).
  destruct (makeWaves_spec e k1 1 (cube_dual _ H1) ltac:(lra)) as [(w & Ew & W & Hne)|[_ HN]].
  2:{ exfalso. apply (HN (V3 1 0 0)%Z). split; [done|]. rewrite N1. unfold normSq, vdot, vmap. cbn [vx vy vz]. lra. }
  assert (IC : forall n, in_cutoff k1 1 n <-> in_cutoff k2 1 n).
  { intros n. unfold in_cutoff. rewrite N1, N2. destruct (normSq_int n) as [z ->]. split; intros [Hn Hz]; (split; [done|]); [lra|].
    assert (IZR z < 2) as Hlt by lra. apply lt_IZR in Hlt. assert (z <= 1)%Z as Hle by lia. apply IZR_le in Hle. lra. }
  eexists _, _, _. split.
  { unfold co_run. cbn [foldM co_do]. unfold co_makeWaves. cbn [co_init oE oBox oKc]. fold e. fold k1. rewrite Ew. cbn [obind]. done. }
  split.
  { unfold co_energy, co_box, co_move. cbn [oKE]. unfold co_need. cbn [oW obind oE oBox oPos]. pose proof (stale_energy e (2 * PI) (2 * PI * (6/5)) 1 w H1 H2 O W) as SE.
    match goal with |- obind ?X _ = _ => change X with (computeEnergy e (cube_kb (2 * PI * (6/5))) [0%nat] unit_charge w origin) end. rewrite SE. cbn [obind]. done. }
  cbn [co_box co_move oBox oKc oE oPos co_init]. fold e k1 k2.
  assert (HL0 : all_waves k2 1 (wInt w ++ map vneg (wInt w))).
  { destruct (all_waves_ex e k1 1 w (cube_dual _ H1) W) as [A1 A2]. split; [done|]. intros n. by rewrite A2, IC. }
  split; [by eexists|]. intros L HL.
  assert (HP' : L ≡ₚ wInt w ++ map vneg (wInt w)).
  { apply NoDup_Permutation; [apply HL|apply HL0|]. intros n. by rewrite (proj2 HL), (proj2 HL0). }
  unfold kspace_energy. rewrite (sum_perm _ _ _ HP'), sum_app, sum_map.
  rewrite !(sum_ext (fun n => influence (eEps e) (eAlpha e) (normSq (wavevector k2 n)) * density2 [0%nat] unit_charge origin (wavevector k2 n))
     (fun n => influence (eEps e) (eAlpha e) (normSq (wavevector k2 n)))) by (intros; rewrite density_origin; ring).
  rewrite !(sum_ext (fun n => influence (eEps e) (eAlpha e) (normSq (wavevector k2 (vneg n))) * density2 [0%nat] unit_charge origin (wavevector k2 (vneg n)))
     (fun n => influence (eEps e) (eAlpha e) (normSq (wavevector k2 n)))) by (intros; rewrite density_origin, normSq_neg; ring).
  assert (HV : 0 < kVol k2) by apply (cube_dual _ H2).
  replace (sum_over [0%nat] (fun a => unit_charge a ^ 2)) with 1 by (unfold sum_over, unit_charge; cbn [map Rsum]; ring). rewrite (Rmult_1_r (_ / _)).
  apply Rplus_lt_compat_r.
  match goal with |- _ < / (2 * _) * (?s + ?s) => replace (/ (2 * kVol k2) * (s + s)) with (/ kVol k2 * s) by (field; lra) end.
  apply Rmult_lt_compat_l; [by apply Rinv_0_lt_compat|]. apply sum_lt; [done|]. intros n Hn. cbn [e ew_read ew_derive eEps eAlpha].
  apply (wo_in _ _ _ _ W) in Hn as [Hh Hc]. fold k1. rewrite N1, N2.
  assert (0 < normSq (vmap IZR n)).
  { destruct (Rle_lt_or_eq_dec 0 _ (normSq_nonneg (vmap IZR n))) as [?|HZ]; [done|]. exfalso. apply (half_ne n Hh).
    destruct n as [a b c]. unfold normSq, vdot, vmap in HZ. cbn [vx vy vz] in HZ. f_equal; apply eq_IZR; nra. }
  apply influence_lt; lra.
Qed.

(** * A parameter changed under the short-range energy *)
Lemma erfc_lt x y : x < y -> erfc y < erfc x.
Proof.
  intros Hxy. unfold erfc. pose proof sqrt_PI_pos as HS.
  assert (EX : forall a b, ex_RInt (fun t => exp (- (t * t))) a b) by (intros; apply (ex_RInt_continuous (V := R_CompleteNormedModule)); intros; apply gauss_cont).
  assert (E : RInt (fun t => exp (- (t * t))) 0 y = RInt (fun t => exp (- (t * t))) 0 x + RInt (fun t => exp (- (t * t))) x y).
  { symmetry. apply (RInt_Chasles (V := R_CompleteNormedModule)); apply EX. }
  assert (P : 0 < RInt (fun t => exp (- (t * t))) x y) by (apply RInt_gt_0; [done|intros; apply exp_pos|intros; apply continuous_continuous || apply gauss_cont]).
  rewrite E. assert (0 < 2 / sqrt PI) by (apply Rdiv_lt_0_compat; lra). nra.
Qed.
