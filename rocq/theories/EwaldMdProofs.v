(** Short-range forces of charges, and the whole of calculateForces with charges. *)
From Coq Require Import Reals Lra.
From Coquelicot Require Import Coquelicot.
From stdpp Require Import gmap.
From Verif Require Import Base Vec3 BoxSpec OrthoModel OrthoSpec OrthoProofs OrthoProps MonoModel MonoSpec MonoProofs MonoProps.
From Verif Require Import McCellModel DomainModel DomainProofs SpeciesModel SpeciesProofs.
From Verif Require Import CellListModel CellListSpec CellListProofs CellListProps PairListModel PairListSpec PairListProofs PairListProps.
From Verif Require Import EnergyModel EnergySpec EnergyProofs MoveModel MoveSpec MoveProofs EnergyProps MoveProps MdModel MdSpec MdProofs MdForces MdProps GradSpec MdGradSpec MdGradProofs MdGradProps.
From Verif Require Import Deriv EwaldModel EwaldSpec EwaldProofs EwaldForces EwaldGrad EwaldMdModel EwaldMdSpec.
From Coq Require Import Reals Lra.
Local Open Scope R_scope.

(** * erfc *)
Lemma gauss_cont x : continuous (fun t => exp (- (t * t))) x.
Proof. apply (ex_derive_continuous (V := R_NormedModule)). auto_derive. done. Qed.
Lemma erfc_derive x : is_derive erfc x (- (2 / sqrt PI * exp (- (x * x)))).
Proof.
  unfold erfc. eapply is_derive_eq.
  { apply (is_derive_minus (V := R_NormedModule)); [apply (is_derive_const (V := R_NormedModule))|]. apply is_derive_scal.
    apply (is_derive_RInt (V := R_NormedModule) (fun t => exp (- (t * t))) (fun x => RInt (fun t => exp (- (t * t))) 0 x) 0 x); [|apply gauss_cont].
    apply filter_forall. intros z. apply (RInt_correct (V := R_CompleteNormedModule)), ex_RInt_continuous. intros; apply gauss_cont. }
  match goal with |- Hierarchy.minus Hierarchy.zero ?x = ?y => change (0 - x = y) end. ring.
Qed.
Lemma sqrt_PI_pos : 0 < sqrt PI. Proof. apply sqrt_lt_R0, PI_RGT_0. Qed.

(** The force of two screened charges. *)
Lemma screened_derive eps alpha qq r : eps <> 0 -> 0 < r ->
  is_derive (screened eps alpha qq) r (- (rSpaceForceOverR (ew_read eps alpha 1) (r * r) qq * r)).
Proof.
  intros He Hr. pose proof (erfc_derive (alpha * r)) as DE. pose proof PI_RGT_0. pose proof sqrt_PI_pos.
  unfold screened, rSpaceForceOverR, ew_read, ew_derive. cbn [eEps eAlpha eRc eRcSq eCe eCf eCg]. rewrite sqrt_square by lra.
  replace (- (alpha * r) * (alpha * r)) with (- (alpha * r * (alpha * r))) by ring.
  revert DE. generalize erfc (exp (- (alpha * r * (alpha * r)))). intros h g DE.
  assert (X : ex_derive h (alpha * r)) by (by eexists).
  apply (is_derive_ext (fun x => qq / (4 * PI * eps) * (h (alpha * x) / x))); [done|].
  auto_derive.
  - repeat split; [done|lra].
  - replace (Derive (fun x : R => h x) (alpha * r)) with (- (2 / sqrt PI * g)) by (symmetry; by apply is_derive_unique). field. lra.
Qed.
Lemma rforce_rc eps alpha rc rc' rsq qq : rSpaceForceOverR (ew_read eps alpha rc) rsq qq = rSpaceForceOverR (ew_read eps alpha rc') rsq qq.
Proof. done. Qed.
Lemma renergy_screened eps alpha rc rsq qq : rSpaceEnergy (ew_read eps alpha rc) rsq qq = screened eps alpha qq (sqrt rsq).
Proof. unfold rSpaceEnergy, screened, ew_read, ew_derive. cbn [eEps eAlpha eCe]. unfold Rdiv. ring. Qed.
Lemma read_ok eps alpha rc : eps <> 0 -> 0 < alpha -> ewald_ok (ew_read eps alpha rc).
Proof. by split. Qed.

(** * The combined system *)
Section Sys.
  Context (y : mdsys) (q : Z -> R) (eps alpha rc : R).
  Notation e := (ew_read eps alpha rc).
  (** The system with one pair interaction for both short-range forces. *)
  Definition ew_sys (ext : option (vec3 R -> Z -> vec3 R)) : mdsys :=
    MS (yM y) (yB y) (yDr y) (yMask y) (ew_forceOverR y e q) (fun _ _ => rc * rc) (yKinds y) ext (yAtoms y) (yTy y) (yMass y) (yDt y).
  Definition ew_u (u : R -> Z -> Z -> R) (rsq : R) (t1 t2 : Z) : R := short_u y rc u rsq t1 t2 + short_c q eps alpha rc rsq t1 t2.

  Lemma sys_ok ext cap skin cut n : md_ok y cap skin cut n -> 0 < rc -> rc <= cut -> md_ok (ew_sys ext) cap skin cut n.
  Proof.
    intros [H1 H2 H3 H4 H5 H6 H7 H8] Hr Hc. split; try done.
    - intros t1 t2. cbn [ew_sys yCutsq]. nra.
    - intros r t1 t2. cbn [ew_sys yFr yCutsq]. split; [|done]. unfold ew_forceOverR. rewrite (Rmult_comm (q t1)). by rewrite !(proj1 (H4 r t1 t2)), (proj2 (H4 r t1 t2)).
  Qed.
  Lemma sys_smooth u extE pos : eps <> 0 -> 0 < rc -> charged_smooth y rc u extE pos -> smooth_at (ew_sys (yExt y)) (ew_u u) extE pos.
  Proof.
    intros He Hr [H1 H2 H3]. split; [|exact H2|exact H3].
    intros i j Hi Hj Hij Hm. specialize (H1 i j Hi Hj Hij Hm). cbv zeta in H1. unfold pair_smooth. cbv zeta. cbn [ew_sys yDr yB yTy yFr yCutsq].
    set (r := sqrt (yDr y (pos i) (pos j)).1) in *. set (t1 := yTy y i) in *. set (t2 := yTy y j) in *. clearbody r t1 t2.
    destruct H1 as (HF & Hr0 & Hne & Hnc & HD). split; [done|]. split; [done|].
    assert (C1 : forall c, continuous (fun x : R => x * x - c) r) by (intros; apply (ex_derive_continuous (V := R_NormedModule)); auto_derive; done).
    assert (C2 : forall c, continuous (fun x : R => x * x - c) r -> r * r < c -> locally r (fun x => x * x < c)).
    { intros c HC Hlt. specialize (HC (fun z => z < 0)). cbv beta in HC. assert (locally (r * r - c) (fun z => z < 0)) as HL by (apply (open_lt 0); lra).
      specialize (HC HL). eapply filter_imp; [|exact HC]. cbv beta. intros x Hx. lra. }
    assert (C3 : forall c, continuous (fun x : R => x * x - c) r -> c < r * r -> locally r (fun x => c < x * x)).
    { intros c HC Hlt. specialize (HC (fun z => 0 < z)). cbv beta in HC. assert (locally (r * r - c) (fun z => 0 < z)) as HL by (apply (open_gt 0); lra).
      specialize (HC HL). eapply filter_imp; [|exact HC]. cbv beta. intros x Hx. lra. }
    assert (HP : locally r (fun x => 0 < x)) by (by apply (open_gt 0)).
    destruct (Rlt_dec (r * r) (rc * rc)) as [Hlt|Hge].
    - pose proof (C2 _ (C1 _) Hlt) as L1.
      assert (DC : is_derive (fun x => short_c q eps alpha rc (x * x) t1 t2) r (- (rSpaceForceOverR e (r * r) (q t1 * q t2) * r))).
      { rewrite (rforce_rc _ _ _ 1). eapply is_derive_ext_loc; [|by apply screened_derive]. generalize (filter_and _ _ L1 HP). apply filter_imp.
        intros x [Hx Hx0]. unfold short_c. destruct (Rlt_dec _ _); [|lra]. by rewrite sqrt_square by lra. }
      unfold ew_u, ew_forceOverR. destruct (Rlt_dec (r * r) (yCutsq y t1 t2)) as [Hl2|Hg2].
      + replace (- ((rSpaceForceOverR e (r * r) (q t1 * q t2) + yFr y (r * r) t1 t2) * r)) with
          (- (yFr y (r * r) t1 t2 * r) + - (rSpaceForceOverR e (r * r) (q t1 * q t2) * r)) by ring.
        apply (is_derive_plus (V := R_NormedModule)); [|exact DC]. eapply is_derive_ext_loc; [|by apply HD].
        generalize (filter_and _ _ L1 (C2 _ (C1 _) Hl2)). apply filter_imp. intros x [Hx Hx2]. unfold short_u.
        destruct (Rlt_dec (x * x) (rc * rc)); [|lra]. by destruct (Rlt_dec (x * x) (yCutsq y t1 t2)); [|lra].
      + rewrite <- (Rplus_0_l (- _)). apply (is_derive_plus (V := R_NormedModule)); [|exact DC].
        eapply is_derive_ext_loc; [|apply (is_derive_const (V := R_NormedModule) 0)].
        generalize (filter_and _ _ L1 (C3 (yCutsq y t1 t2) (C1 _) ltac:(lra))). apply filter_imp. intros x [Hx Hx2]. unfold short_u.
        destruct (Rlt_dec (x * x) (rc * rc)); [|lra]. by destruct (Rlt_dec (x * x) (yCutsq y t1 t2)); [lra|].
    - assert (Hgt : rc * rc < r * r).
      { destruct (Rtotal_order (rc * rc) (r * r)) as [?|[E|?]]; [done| |lra]. exfalso. apply Hne. apply Rsqr_inj; [lra..|]. unfold Rsqr. lra. }
      eapply is_derive_ext_loc; [|apply (is_derive_const (V := R_NormedModule) 0)].
      generalize (C3 _ (C1 _) Hgt). apply filter_imp. intros x Hx. unfold ew_u, short_u, short_c. destruct (Rlt_dec _ _); [lra|]. change (0 = 0 + 0). ring.
  Qed.
  Lemma sys_energy u extE pos : md_energy (ew_sys (yExt y)) (ew_u u) extE pos =
    pairs_of y (short_u y rc u) pos + pairs_of y (short_c q eps alpha rc) pos + sum_over (map fK (yKinds y)) (bonded_energy pos) + external_energy extE (yAtoms y) pos (yTy y).
  Proof.
    unfold md_energy, total_energy. cbn [ew_sys yB yMask yKinds yAtoms yTy]. f_equal. f_equal. unfold pairs_of, pair_energy.
    rewrite <- EnergyProofs.sum_plus. apply sum_ext. intros i _. rewrite <- EnergyProofs.sum_plus. apply sum_ext. intros j _. unfold ew_u.
    destruct (decide _); [destruct (yMask y i j)|]; ring.
  Qed.
End Sys.

Lemma kbox_ewald B kb : kbox_of B kb -> ewald_box kb.
Proof. intros [(b & ? & _ & ->)|(b & ? & _ & ->)]; [left|right]; eauto. Qed.

(** * calculateForces *)
Section Calc.
  Context (y : mdsys) (q : Z -> R) (eps alpha rc kc : R) (kb : kbox) (cap A Pc : nat) (skin cut : R) (n : vec3 Z).
  Context (Ho : md_ok y cap skin cut n) (Hg : groups_ok y) (He : eps <> 0) (Ha : 0 < alpha) (Hr : 0 < rc) (Hrc : rc <= cut) (Hk : 0 < kc).
  Context (HK : kbox_of (yB y) kb) (HQ : real_charges (yAtoms y) (fun a => q (yTy y a))).
  Notation e := (ew_read eps alpha rc).
  Notation y0 := (ew_sys y q eps alpha rc None).
  Notation ch := (atom_charge y q).

  Lemma charged_eq pos F p hw : charged_calc y e q kb kc pos F p hw =
    (let? r := md_calc y0 pos F p in let '(pos, F, p) := r in
     let? w := need_waves e kb kc hw in let? F := addForces kb (yAtoms y) ch w pos F in
     Ok (pos, match yExt y with Some f => ext_forces f (yAtoms y) pos (yTy y) F | None => F end, p, w)).
  Proof using Type.
    unfold charged_calc, md_calc, ew_pair_forces. cbn [ew_sys yAtoms yDr yFr yCutsq yTy yKinds yExt]. change (md_list y0) with (md_list y).
    change (eRcSq e) with (rc * rc).
    destruct (md_list y pos p) as [[pos1 p1]| |]; [|done..]. cbn [obind].
    destruct (md_pair_forces _ _ _ _ _ _ _ _) as [[F1|]| |]; done.
  Qed.
  Lemma dual : dual_box kb. Proof using HK. apply ewald_dual. by eapply kbox_ewald. Qed.

  Definition kforces (w : waves) (pos : nat -> vec3 R) (a : nat) : vec3 R := kf e kb w (yAtoms y) ch pos a.

  Lemma charged_calc_eq pos F p hw : list_built y cap A Pc skin cut p -> nearby y pos ->
    (hw = None \/ exists w, hw = Some w /\ makeWaves e kb kc = Ok w) ->
    (exists pos2 F2 p2 w, charged_calc y e q kb kc pos F p hw = Ok (pos2, F2, p2, w) /\
       list_built y cap A Pc skin cut p2 /\ nearby y pos2 /\ same_images (bBrav (yB y)) (yAtoms y) pos pos2 /\
       makeWaves e kb kc = Ok w /\ waves_of e kb kc w /\
       (forall a, a ∈ yAtoms y -> F2 a = vadd (total_force (ew_sys y q eps alpha rc (yExt y)) pos2 a) (kforces w pos2 a))) \/
    (charged_calc y e q kb kc pos F p hw = Throw /\ (md_calc y0 pos F p = Throw \/ forall k, ~ in_cutoff kb kc k)).
  Proof using Ho Hg He Ha Hr Hrc Hk HK HQ.
    intros Hb Hn Hw. rewrite charged_eq. pose proof (sys_ok y q eps alpha rc None cap skin cut n Ho Hr Hrc) as Ho0.
    destruct (md_forces_correct y0 cap A Pc skin cut n pos F p Ho0 Hg Hb Hn) as [(pos2 & F2 & p2 & E & B2 & N2 & S2 & HF & _)|[E _]]; rewrite E; cbn [obind].
    2:{ right. split; [done|by left]. }
    destruct (makeWaves_spec e kb kc dual Hk) as [(w & Ew & W & _)|[Ew HN]].
    2:{ right. destruct Hw as [->|(w & -> & Ew')]; [|by rewrite Ew' in Ew]. cbn [need_waves]. rewrite Ew. split; [done|by right]. }
    left. assert (need_waves e kb kc hw = Ok w) as -> by (destruct Hw as [->|(w' & -> & Ew')]; [done|]; cbn [need_waves]; congruence).
    cbn [obind]. destruct (addForces_eq e kb kc w dual W (yAtoms y) ch pos2 F2 (mo_nodup _ _ _ _ _ Ho) HQ) as (F3 & -> & HF3). cbn [obind].
    eexists _, _, _, _. split; [done|]. split; [done|]. split; [done|]. split; [done|]. split; [done|]. split; [done|].
    intros a Hin. destruct (yExt y) as [f|] eqn:Ex.
    - rewrite ext_forces_spec by apply (mo_nodup _ _ _ _ _ Ho). rewrite decide_True by done. rewrite (proj1 HF3 a Hin), (HF a Hin).
      unfold total_force, external_part, kforces. cbn [ew_sys yExt]. change (pair_part y0 pos2 a) with (pair_part (ew_sys y q eps alpha rc (Some f)) pos2 a).
      change (bonded_part y0 pos2 a) with (bonded_part (ew_sys y q eps alpha rc (Some f)) pos2 a). apply vget_eq. intros c. rewrite !vget_add, !vget_zero. cbn [ew_sys yTy]. ring.
    - rewrite (proj1 HF3 a Hin), (HF a Hin). unfold total_force, external_part, kforces. cbn [ew_sys yExt]. done.
  Qed.

  Lemma charged_gradient u extE L w pos F2 : all_waves kb kc L -> waves_of e kb kc w -> charged_smooth y rc u extE pos ->
    (forall a, a ∈ yAtoms y -> F2 a = vadd (total_force (ew_sys y q eps alpha rc (yExt y)) pos a) (kforces w pos a)) ->
    forall ed, is_derive (fun t => charged_energy y q eps alpha rc u extE kb L (displaced pos ed t)) 0 (- work (yAtoms y) F2 ed).
  Proof using Ho Hg He Ha Hr Hrc HK.
    intros HL W Hs HF ed. pose proof (sys_ok y q eps alpha rc (yExt y) cap skin cut n Ho Hr Hrc) as Ho1.
    apply (is_derive_ext (fun t => md_energy (ew_sys y q eps alpha rc (yExt y)) (ew_u y q eps alpha rc u) extE (displaced pos ed t) +
      kspace_energy eps alpha kb L (yAtoms y) ch (displaced pos ed t))).
    { intros t. unfold charged_energy. by rewrite sys_energy. }
    assert (E : - work (yAtoms y) F2 ed = - work (yAtoms y) (total_force (ew_sys y q eps alpha rc (yExt y)) pos) ed + - work (yAtoms y) (kforces w pos) ed).
    { unfold work. rewrite <- Ropp_plus_distr, <- EnergyProofs.sum_plus. f_equal. apply sum_ext. intros a Hin. by rewrite HF, vdot_add_l. }
    rewrite E. apply (is_derive_plus (V := R_NormedModule)).
    - apply (total_force_gradient (ew_sys y q eps alpha rc (yExt y)) (ew_u y q eps alpha rc u) extE cap skin cut n pos Ho1 Hg). by apply sys_smooth.
    - exact (kspace_gradient e kb kc w L (yAtoms y) ch pos ed (read_ok eps alpha rc He Ha) dual W HL).
  Qed.
End Calc.

(** * computeEnergy of the pair potential *)
Lemma ew_pair_sums y e q u fuel p pos E1 E2 :
  md_pair_energy (bDist (yB y)) (fun rsq t1 t2 => if Rlt_dec rsq (eRcSq e) then if Rlt_dec rsq (yCutsq y t1 t2) then u rsq t1 t2 else 0 else 0) fuel p pos (yTy y) = Ok (Some E1) ->
  md_pair_energy (bDist (yB y)) (fun rsq t1 t2 => if Rlt_dec rsq (eRcSq e) then rSpaceEnergy e rsq (q t1 * q t2) else 0) fuel p pos (yTy y) = Ok (Some E2) ->
  ew_pair_energy y e q u fuel p pos = Ok (Some (E1, E2)).
Proof.
  unfold md_pair_energy, ew_pair_energy. intros (o & Eo & H1)%obind_Ok. rewrite Eo. cbn [obind]. destruct o as [l|]; [|done]. clear Eo.
  intros H2. assert (G : forall l a b x1 x2,
    foldM (fun e0 x => match x with (Some i, Some j) => Ok (e0 + (if Rlt_dec (bDist (yB y) (pos i) (pos j)) (eRcSq e) then if Rlt_dec (bDist (yB y) (pos i) (pos j)) (yCutsq y (yTy y i) (yTy y j)) then u (bDist (yB y) (pos i) (pos j)) (yTy y i) (yTy y j) else 0 else 0)) | _ => UB end) a l = Ok x1 ->
    foldM (fun e0 x => match x with (Some i, Some j) => Ok (e0 + (if Rlt_dec (bDist (yB y) (pos i) (pos j)) (eRcSq e) then rSpaceEnergy e (bDist (yB y) (pos i) (pos j)) (q (yTy y i) * q (yTy y j)) else 0)) | _ => UB end) b l = Ok x2 ->
    foldM (fun (s : R * R) x => match x with
          | (Some i, Some j) =>
              let rsq := bDist (yB y) (pos i) (pos j) in
              if Rlt_dec rsq (eRcSq e) then
                let pE := if Rlt_dec rsq (yCutsq y (yTy y i) (yTy y j)) then s.1 + u rsq (yTy y i) (yTy y j) else s.1 in
                Ok (pE, s.2 + rSpaceEnergy e rsq (q (yTy y i) * q (yTy y j)))
              else Ok s
          | _ => UB
          end) (a, b) l = Ok (x1, x2)).
  { clear. induction l as [|[[i|] [j|]] l IH]; intros a b x1 x2; cbn [foldM obind]; [by intros [= ->] [= ->]| |done..].
    cbv zeta. intros H1 H2. destruct (Rlt_dec (bDist (yB y) (pos i) (pos j)) (eRcSq e)).
    - cbn [obind fst snd]. apply IH; [|done]. destruct (Rlt_dec _ _); [done|]. by rewrite Rplus_0_r in H1.
    - cbn [obind]. rewrite Rplus_0_r in H1, H2. by apply IH. }
  apply obind_Ok in H1 as (x1 & H1 & [= <-]). apply obind_Ok in H2 as (x2 & H2 & [= <-]). match goal with |- obind ?X _ = _ => assert (X = Ok (x1, x2)) as -> by exact (G _ _ _ _ _ H1 H2) end. done.
Qed.
Lemma pair_energy_ext d m (u v : R -> Z -> Z -> R) l pos ty : (forall r a b, u r a b = v r a b) -> pair_energy d m u l pos ty = pair_energy d m v l pos ty.
Proof. intros E. unfold pair_energy. apply sum_ext. intros i _. apply sum_ext. intros j _. by rewrite E. Qed.

Section PairEnergy.
  Context (y : mdsys) (q : Z -> R) (eps alpha rc : R) (cap A Pc : nat) (skin cut : R) (n : vec3 Z).
  Context (Ho : md_ok y cap skin cut n) (Hr : 0 < rc) (Hrc : rc <= cut).
  Notation e := (ew_read eps alpha rc).

  Lemma sum_current u : interaction_ok cut u -> forall p pos pos2 p2 fuel, list_built y cap A Pc skin cut p -> nearby y pos ->
    md_list y pos p = Ok (pos2, p2) -> (length (stored p2) < fuel)%nat -> md_pair_energy (bDist (yB y)) u fuel p2 pos2 (yTy y) = Ok (Some (pairs_of y u pos2)).
  Proof using Ho.
    intros Hu p pos pos2 p2 fuel (p0 & pos0 & pos1 & Hst & Hn0 & Href) Hn Hl Hf.
    assert (Hat : forall a, a ∈ yAtoms y -> (a < cap)%nat /\ near_cell_of (bBrav (yB y)) (pos0 a)) by (intros a Ha; split; [by apply (mo_cap _ _ _ _ _ Ho)|by apply Hn0]).
    destruct (md_energy_boundary (yM y) cap A Pc (yB y) (yMask y) u cut skin n (yAtoms y) pos0 (yTy y) p0 pos1 p
      (y_boundary _ _ _ _ _ Ho) Hu Hst (mo_grid _ _ _ _ _ Ho) (mo_nodup _ _ _ _ _ Ho) Hat) with (new := pos) as [(pos2' & p2' & E & _ & HE)|[E _]].
    - intros r q0 m H1 H2 H3. apply (y_min _ _ _ _ _ Ho r q0 m H1 H2 H3). pose proof (mo_cut _ _ _ _ _ Ho).
      pose proof (state_stok (yM y) cap A Pc skin cut p0 ltac:(lra) Hst) as [_ _ _ _ Hs0 _]. lra.
    - done.
    - intros a Ha. split; [by apply (mo_cap _ _ _ _ _ Ho)|by apply Hn].
    - unfold md_list in Hl. rewrite Hl in E. injection E as <- <-. by apply HE.
    - unfold md_list in Hl. by rewrite Hl in E.
  Qed.

  Lemma pair_energies u p pos pos2 p2 fuel : (forall r t1 t2, u r t1 t2 = u r t2 t1) -> list_built y cap A Pc skin cut p -> nearby y pos ->
    md_list y pos p = Ok (pos2, p2) -> (length (stored p2) < fuel)%nat ->
    ew_pair_energy y e q u fuel p2 pos2 = Ok (Some (pairs_of y (short_u y rc u) pos2, pairs_of y (short_c q eps alpha rc) pos2)).
  Proof using Ho Hr Hrc.
    intros Hu Hb Hn Hl Hf. pose proof (mo_cut _ _ _ _ _ Ho). apply ew_pair_sums.
    - change (eRcSq e) with (rc * rc). apply (sum_current (short_u y rc u)) with p pos; try done. split; [lra|]. unfold short_u. split.
      + intros r t1 t2 Hle. destruct (Rlt_dec r (rc * rc)); [nra|done].
      + intros r t1 t2. by rewrite Hu, (proj2 (mo_sym _ _ _ _ _ Ho r t1 t2)).
    - change (eRcSq e) with (rc * rc). replace (pairs_of y (short_c q eps alpha rc) pos2) with (pairs_of y (fun rsq t1 t2 => if Rlt_dec rsq (rc * rc) then rSpaceEnergy e rsq (q t1 * q t2) else 0) pos2).
      2:{ apply pair_energy_ext. intros r t1 t2. unfold short_c. by rewrite renergy_screened. }
      apply (sum_current (fun rsq t1 t2 => if Rlt_dec rsq (rc * rc) then rSpaceEnergy e rsq (q t1 * q t2) else 0)) with p pos; try done. split; [lra|]. split.
      + intros r t1 t2 Hle. destruct (Rlt_dec r (rc * rc)); [nra|done].
      + intros r t1 t2. by rewrite (Rmult_comm (q t1)).
  Qed.
End PairEnergy.
