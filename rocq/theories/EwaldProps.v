(** Properties C81 to C85: Ewald sums. *)
From Coq Require Import Reals Lra.
From Coquelicot Require Import Coquelicot.
From stdpp Require Import gmap.
From Verif Require Import Base Vec3 BoxSpec OrthoModel OrthoSpec OrthoProofs OrthoProps MonoModel MonoSpec MonoProofs MonoProps.
From Verif Require Import McCellModel DomainModel DomainProofs SpeciesModel SpeciesProofs.
From Verif Require Import CellListModel CellListSpec CellListProofs CellListProps PairListModel PairListSpec PairListProofs PairListProps.
From Verif Require Import EnergyModel EnergySpec EnergyProofs MoveModel MoveSpec MoveProofs EnergyProps MoveProps MdModel MdSpec MdProofs MdForces MdProps GradSpec MdGradSpec MdGradProofs MdGradProps.
From Verif Require Import Deriv EwaldModel EwaldSpec EwaldProofs EwaldForces EwaldGrad EwaldStress EwaldMdModel EwaldMdSpec EwaldMdProofs EwaldKept.
From Coq Require Import Reals Lra.
Local Open Scope R_scope.

(** C81.  MdEwaldPotential::makeWaves, for any box of either class and any positive cutoff: it throws if and only if no nonzero
    wavevector is within the cutoff; otherwise it stores exactly one of each pair k, -k of those within the cutoff, with the
    square of its length and the influence function of the interaction, and the indices stay within the ranges of the
    tables of exponentials. *)
Theorem waves_correct :
  forall eps alpha rc kb kc, eps <> 0 -> 0 < alpha -> ewald_box kb -> 0 < kc ->
  let e := ew_read eps alpha rc in
  (exists w, makeWaves e kb kc = Ok w /\ NoDup (wInt w) /\
     (forall n, n ∈ wInt w -> in_cutoff kb kc n /\ vneg n ∉ wInt w) /\
     (forall n, in_cutoff kb kc n -> n ∈ wInt w \/ vneg n ∈ wInt w) /\ (exists n, in_cutoff kb kc n) /\
     wKsq w = map (fun n => normSq (wavevector kb n)) (wInt w) /\
     wG w = map (fun n => influence eps alpha (normSq (wavevector kb n))) (wInt w) /\
     forall n, n ∈ wInt w -> (0 <= vx n <= wU0 w)%Z /\ (wB1 w <= vy n <= wU1 w)%Z /\ (wB2 w <= vz n <= wU2 w)%Z) \/
  (makeWaves e kb kc = Throw /\ forall n, ~ in_cutoff kb kc n).
Proof.
  intros eps alpha rc kb kc He Ha Hb Hk e. pose proof (ewald_dual kb Hb) as D.
  destruct (makeWaves_spec e kb kc D Hk) as [(w & Ew & W & Hne)|?]; [left|by right]. exists w.
  assert (IN : forall n, n ∈ wInt w -> in_cutoff kb kc n).
  { intros n Hn. apply (wo_in _ _ _ _ W) in Hn as [H1 H2]. split; [by apply half_ne|done]. }
  split; [done|]. split; [apply W|]. split; [|split; [|split; [|split; [apply W|split]]]].
  - intros n Hn. split; [by apply IN|]. intros H2. apply (wo_in _ _ _ _ W) in Hn as [H1 _]. apply (wo_in _ _ _ _ W) in H2 as [H2 _]. by apply (half_not n).
  - intros n [Hn Hc]. rewrite !(wo_in _ _ _ _ W), normSq_neg. destruct (half_or n Hn); tauto.
  - destruct (wInt w) as [|k l]; [done|]. exists k. apply IN. left.
  - rewrite (wo_g _ _ _ _ W). apply map_ext. intros n. by rewrite (kpot_influence e _ (read_ok eps alpha rc He Ha)).
  - intros n Hn. pose proof (wo_rng _ _ _ _ W _ Hn) as HR. apply (wo_in _ _ _ _ W) in Hn as [Hh _]. unfold in_ranges in HR. unfold half in Hh. clear -HR Hh. lia.
Qed.
Print Assumptions waves_correct.

(** A cube of length 2 pi and cutoff 1: there are waves; with cutoff 1/2 there are none. *)
Example waves_example :
  ewald_box (cube_kb (2 * PI)) /\ in_cutoff (cube_kb (2 * PI)) 1 (V3 1 0 0)%Z /\ in_cutoff (cube_kb (2 * PI)) 1 (V3 0 (-1) 0)%Z /\
  ~ in_cutoff (cube_kb (2 * PI)) 1 (V3 1 1 0)%Z /\ makeWaves (ew_read 1 1 1) (cube_kb (2 * PI)) (1/2) = Throw.
Proof.
  pose proof PI_RGT_0 as HP. assert (H1 : 0 < 2 * PI) by lra.
  assert (N1 : forall n, normSq (wavevector (cube_kb (2 * PI)) n) = normSq (vmap IZR n)) by (intros n; rewrite cube_normSq by done; field; lra).
  assert (B : ewald_box (cube_kb (2 * PI))) by (left; eexists; split; [by apply cube_a_box|done]).
  split; [done|]. split; [|split; [|split]].
  - split; [done|]. rewrite N1. unfold normSq, vdot, vmap. cbn [vx vy vz]. lra.
  - split; [done|]. rewrite N1. unfold normSq, vdot, vmap. cbn [vx vy vz]. lra.
  - intros [_ H]. rewrite N1 in H. unfold normSq, vdot, vmap in H. cbn [vx vy vz] in H. lra.
  - destruct (waves_correct 1 1 1 (cube_kb (2 * PI)) (1/2) ltac:(lra) ltac:(lra) B ltac:(lra)) as [(w & _ & _ & _ & _ & (n & Hn & Hc) & _)|[E _]]; [|done].
    exfalso. rewrite N1 in Hc. destruct (normSq_int n) as [z Ez]. rewrite Ez in Hc.
    assert (0 < IZR z).
    { rewrite <- Ez. destruct (Rle_lt_or_eq_dec 0 _ (EwaldProofs.normSq_nonneg (vmap IZR n))) as [?|HZ]; [done|]. exfalso. apply Hn.
      destruct n as [a b c]. unfold normSq, vdot, vmap in HZ. cbn [vx vy vz] in HZ. f_equal; apply eq_IZR; nra. }
    apply lt_IZR in H. assert (1 <= z)%Z as Hz by lia. apply IZR_le in Hz. lra.
Qed.

(** C82.  The k-space energy and forces of MdEwaldPotential, with the waves that makeWaves makes, for any box, charges (zero or
    larger than 1e-10), positions and parameters: nothing is read out of bounds; computeEnergy gives the textbook sum over all
    nonzero wavevectors within the cutoff minus the self-energies; addForces adds to the forces minus the gradient of
    this sum; and the forces added sum to zero. *)
Theorem kspace_correct :
  forall eps alpha rc kb kc w L atoms charge pos F,
  eps <> 0 -> 0 < alpha -> ewald_box kb -> 0 < kc -> makeWaves (ew_read eps alpha rc) kb kc = Ok w -> all_waves kb kc L ->
  NoDup atoms -> real_charges atoms charge ->
  let e := ew_read eps alpha rc in
  computeEnergy e kb atoms charge w pos = Ok (kspace_energy eps alpha kb L atoms charge pos) /\
  exists F2 f, addForces kb atoms charge w pos F = Ok F2 /\
    (forall a, a ∈ atoms -> F2 a = vadd (F a) (f a)) /\ (forall a, a ∉ atoms -> F2 a = F a) /\
    vsum_over atoms f = V3 0 0 0 /\
    forall ed, is_derive (fun t => kspace_energy eps alpha kb L atoms charge (displaced pos ed t)) 0 (- work atoms f ed).
Proof.
  intros eps alpha rc kb kc w L atoms charge pos F He Ha Hb Hk Hw HL Hnd Hq e. pose proof (ewald_dual kb Hb) as D.
  destruct (makeWaves_spec e kb kc D Hk) as [(w' & Ew & W & _)|[Ew _]]; change (makeWaves (ew_read eps alpha rc) kb kc) with (makeWaves e kb kc) in Hw; rewrite Hw in Ew; [injection Ew as <-|done].
  pose proof (read_ok eps alpha rc He Ha) as O. split; [exact (energy_full e kb kc w L atoms charge pos O D W HL)|].
  destruct (addForces_eq e kb kc w D W atoms charge pos F Hnd Hq) as (F2 & E & H1 & H2).
  exists F2, (kf e kb w atoms charge pos). split; [done|]. split; [done|]. split; [done|]. split; [exact (kspace_momentum e kb kc w atoms charge pos D W)|].
  intros ed. exact (kspace_gradient e kb kc w L atoms charge pos ed O D W HL).
Qed.
Print Assumptions kspace_correct.

(** C83.  The k-space stress of MdEwaldPotential: -1/V times the derivative of the k-space energy with respect to a homogeneous
    deformation of the cell and of all positions.  The energy of the deformed cell is the textbook sum over the same
    wavevector indices. *)
Theorem kspace_stress_correct :
  forall eps alpha rc kb kc w L atoms charge pos,
  eps <> 0 -> 0 < alpha -> ewald_box kb -> 0 < kc -> makeWaves (ew_read eps alpha rc) kb kc = Ok w -> all_waves kb kc L ->
  exists S, computeStress (ew_read eps alpha rc) kb atoms charge w pos = Ok S /\
  forall E, is_derive (fun t => kspace_energy eps alpha (strained_cell E t (kBrav kb)) L atoms charge (fun a => strain E t (pos a))) 0
    (- (kVol kb * contract S E)).
Proof.
  intros eps alpha rc kb kc w L atoms charge pos He Ha Hb Hk Hw HL. pose proof (ewald_dual kb Hb) as D. set (e := ew_read eps alpha rc) in *.
  destruct (makeWaves_spec e kb kc D Hk) as [(w' & Ew & W & _)|[Ew _]]; change (makeWaves (ew_read eps alpha rc) kb kc) with (makeWaves e kb kc) in Hw; rewrite Hw in Ew; [injection Ew as <-|done].
  pose proof (read_ok eps alpha rc He Ha) as O. destruct (stress_eq e kb kc w O D W atoms charge pos) as (S & HS & _).
  exists S. split; [done|]. exact (stress_derive e kb kc w O D W atoms charge pos L S HL HS).
Qed.
Print Assumptions kspace_stress_correct.
(** At no deformation the energy of the deformed cell is that of the cell. *)
Lemma strained_0 eps alpha kb L atoms charge pos E : ewald_box kb ->
  kspace_energy eps alpha (strained_cell E 0 (kBrav kb)) L atoms charge (fun a => strain E 0 (pos a)) = kspace_energy eps alpha kb L atoms charge pos.
Proof.
  intros Hb. pose proof (ewald_dual kb Hb) as D. assert (HT : triple (kBrav kb) <> 0) by (rewrite <- (db_vol _ D); pose proof (db_pos _ D); lra).
  assert (H1 : triple (dm E 0) <> 0) by (rewrite det_0; lra). unfold kspace_energy. rewrite strained_vol, det_0, Rmult_1_l, <- (db_vol _ D). f_equal. f_equal.
  apply sum_ext. intros n _. rewrite strained_density by done. rewrite strained_wave, cell_wave by done.
  replace (normSq _) with (/ triple (dm E 0) * / triple (dm E 0) * cofsq E (wavevector kb n) 0) by (unfold cofsq, normSq, vdot, vscale; cbn [vx vy vz]; ring).
  rewrite det_0, cofsq_0, Rinv_1, !Rmult_1_l. done.
Qed.

(** A charge +1 at the origin and a charge -1 at (1, 2, 3) meet the hypotheses. *)
Example kspace_example :
  exists w L, makeWaves (ew_read 1 1 1) (cube_kb (2 * PI)) 1 = Ok w /\ all_waves (cube_kb (2 * PI)) 1 L /\ L <> [] /\
  ewald_box (cube_kb (2 * PI)) /\ real_charges [0; 1]%nat (fun a => if decide (a = 0%nat) then 1 else -1) /\ NoDup [0; 1]%nat.
Proof.
  destruct waves_example as (B & H1 & _). pose proof (ewald_dual _ B) as D.
  destruct (makeWaves_spec (ew_read 1 1 1) (cube_kb (2 * PI)) 1 D ltac:(lra)) as [(w & Ew & W & Hne)|[_ HN]]; [|by destruct (HN _ H1)].
  exists w, (wInt w ++ map vneg (wInt w)). split; [done|]. split; [by eapply all_waves_ex|]. split; [by destruct (wInt w)|]. split; [done|].
  split; [|apply (bool_decide_eq_true_1 (NoDup _)); reflexivity].
  intros a _. right. assert (X : / 10 ^ 10 < 1) by (rewrite <- Rinv_1; apply Rinv_lt_contravar; lra). destruct (decide _); [rewrite Rabs_R1|rewrite Rabs_left by lra; lra]; done.
Qed.

(** C84.  MdSystem::calculateForces for charges, with an MdEwaldPairPotentialImpl and an MdEwaldPotential: either it throws, when a
    cell, the pair list or its array is full or no wave is within the cutoff, or the forces it stores are minus the
    gradient of the sum of all energies: pairs and screened charges closer than rSpaceCutoff, groups, external field and
    waves. *)
Theorem charged_forces_are_gradient :
  forall y q eps alpha rc kc kb cap A Pc skin cut n u extE L pos F p hw,
  md_ok y cap skin cut n -> groups_ok y -> eps <> 0 -> 0 < alpha -> 0 < rc -> rc <= cut -> 0 < kc ->
  kbox_of (yB y) kb -> real_charges (yAtoms y) (fun a => q (yTy y a)) -> all_waves kb kc L ->
  list_built y cap A Pc skin cut p -> nearby y pos ->
  let e := ew_read eps alpha rc in
  (hw = None \/ exists w, hw = Some w /\ makeWaves e kb kc = Ok w) ->
  (exists pos2 F2 p2 w, charged_calc y e q kb kc pos F p hw = Ok (pos2, F2, p2, w) /\ makeWaves e kb kc = Ok w /\
     list_built y cap A Pc skin cut p2 /\ nearby y pos2 /\ same_images (bBrav (yB y)) (yAtoms y) pos pos2 /\
     (charged_smooth y rc u extE pos2 ->
      forall ed, is_derive (fun t => charged_energy y q eps alpha rc u extE kb L (displaced pos2 ed t)) 0 (- work (yAtoms y) F2 ed)) /\
     (yExt y = None -> vsum_over (yAtoms y) F2 = V3 0 0 0)) \/
  (charged_calc y e q kb kc pos F p hw = Throw /\
     (crowded (bGen (yB y)) n (yM y) (yAtoms y) (fun a => bWrap (yB y) (pos a)) \/ (A < length (yAtoms y))%nat \/
      (exists l, lists_close (bDist (yB y)) (yMask y) (cut + skin) (yAtoms y) (fun a => bWrap (yB y) (pos a)) l /\ (Pc < length l)%nat) \/
      forall k, ~ in_cutoff kb kc k)).
Proof.
  intros y q eps alpha rc kc kb cap A Pc skin cut n u extE L pos F p hw Ho Hg He Ha Hr Hrc Hk HK HQ HL Hb Hn e Hw.
  destruct (charged_calc_eq y q eps alpha rc kc kb cap A Pc skin cut n Ho Hg He Ha Hr Hrc Hk HK HQ pos F p hw Hb Hn Hw)
    as [(pos2 & F2 & p2 & w & E & B2 & N2 & S2 & Ew & W & HF)|[E HT]].
  - left. exists pos2, F2, p2, w. split; [done|]. split; [done|]. split; [done|]. split; [done|]. split; [done|]. split.
    + intros Hs. exact (charged_gradient y q eps alpha rc kc kb cap skin cut n Ho Hg He Ha Hr Hrc HK u extE L w pos2 F2 HL W Hs HF).
    + intros Hx. pose proof (sys_ok y q eps alpha rc (yExt y) cap skin cut n Ho Hr Hrc) as Ho1.
      pose proof (total_force_balanced (ew_sys y q eps alpha rc (yExt y)) cap skin cut n Ho1 pos2 Hg Hx) as HB. unfold balanced in HB. cbn [ew_sys yAtoms] in HB.
      pose proof (kspace_momentum e kb kc w (yAtoms y) (fun a => q (yTy y a)) pos2 (ewald_dual kb (kbox_ewald _ _ HK)) W) as HM.
      apply vget_eq. intros c. rewrite vget_sum, (sum_ext _ (fun a => vget (total_force (ew_sys y q eps alpha rc (yExt y)) pos2 a) c + vget (kf e kb w (yAtoms y) (fun a => q (yTy y a)) pos2 a) c)).
      2:{ intros a Hin. rewrite (HF a Hin), vget_add. done. }
      apply (f_equal (fun v => vget v c)) in HB. cbv beta in HB. rewrite vget_sum, vget_zero in HB.
      apply (f_equal (fun v => vget v c)) in HM. cbv beta in HM. rewrite vget_sum, vget_zero in HM.
      rewrite EnergyProofs.sum_plus, vget_zero. etransitivity; [exact (f_equal2 Rplus HB HM)|lra].
  - right. split; [done|]. destruct HT as [HT|HT]; [|tauto].
    pose proof (sys_ok y q eps alpha rc None cap skin cut n Ho Hr Hrc) as Ho0.
    destruct (md_forces_correct (ew_sys y q eps alpha rc None) cap A Pc skin cut n pos F p Ho0 Hg Hb Hn) as [(pos3 & F3 & p3 & E3 & _)|[_ HB]]; [by rewrite HT in E3|].
    cbn [ew_sys yB yM yAtoms yMask] in HB. tauto.
Qed.
Print Assumptions charged_forces_are_gradient.

(** The energies that MdEwaldPairPotentialImpl computes after building or keeping the list: all pairs closer than both cutoffs, and
    the screened charges closer than rSpaceCutoff, each pair once.  The fuel bounds the length of the loop over the list. *)
Theorem charged_pair_energies :
  forall y q eps alpha rc cap A Pc skin cut n u pos pos2 p p2 fuel,
  md_ok y cap skin cut n -> 0 < rc -> rc <= cut -> (forall r t1 t2, u r t1 t2 = u r t2 t1) ->
  list_built y cap A Pc skin cut p -> nearby y pos ->
  md_list y pos p = Ok (pos2, p2) -> (length (stored p2) < fuel)%nat ->
  ew_pair_energy y (ew_read eps alpha rc) q u fuel p2 pos2
    = Ok (Some (pairs_of y (short_u y rc u) pos2, pairs_of y (short_c q eps alpha rc) pos2)).
Proof.
  intros y q eps alpha rc cap A Pc skin cut n u pos pos2 p p2 fuel Ho Hr Hrc Hu Hb Hn Hl Hf.
  exact (pair_energies y q eps alpha rc cap A Pc skin cut n Ho Hr Hrc u p pos pos2 p2 fuel Hu Hb Hn Hl Hf).
Qed.
Print Assumptions charged_pair_energies.

(** Two opposite charges that also repel each other through a face of a cubic box of length 10: the forces are computed, and
    are minus the gradient of the energy. *)
Definition ex_q (a : Z) : R := 1.
Definition ex_v (rsq : R) (_ _ : Z) : R := (1 - rsq) / 2.
Lemma ex_pair x0 x1 : x0 - x1 = 3/5 \/ x0 - x1 = -3/5 \/ x0 - x1 = 47/5 \/ x0 - x1 = -47/5 ->
  (distanceSq_dr ex_box (V3 x0 1 1) (V3 x1 1 1)).1 = 9/25 /\ MdGradSpec.off_faces (ortho_bd ex_box) (V3 x0 1 1) (V3 x1 1 1).
Proof.
  destruct ex_wf as [lat W]. intros H. split.
  - unfold distanceSq_dr. rewrite !(sep_eq _ _ _ _ _ _ W) by lia. cbn [vget vx vy vz fst]. rewrite !(sep_in 10 1 1) by (apply Rabs_le; lra). cbn [fst].
    unfold sep_axis. set (d := x0 - x1) in *. clearbody d.
    unfold Rabs. destruct (Rcase_abs d); repeat destruct (Rgt_dec _ _); cbn [fst]; try (exfalso; lra); destruct H as [H|[H|[H|H]]]; try (exfalso; lra); rewrite H; lra.
  - intros i Hi. cbn [ortho_bd bGen]. unfold cartToGen. rewrite (w_inv _ _ _ W). destruct i as [|[|[|]]]; [|cbn [vget vx vy vz]; rewrite Rminus_diag_eq, Rabs_R0 by done; lra..|lia].
    cbn [vget vx vy vz]. replace (x0 * / 10 - x1 * / 10) with ((x0 - x1) / 10) by lra. set (d := x0 - x1) in *. clearbody d. unfold Rabs. destruct (Rcase_abs _); lra.
Qed.
Lemma ex_apart pos2 : (forall a, a ∈ [0; 1]%nat -> pos2 a = ex_pos a) \/ (forall a, a ∈ [0; 1]%nat -> pos2 a = shift1 ex_box (ex_pos a)) ->
  charged_smooth ex_y 1 ex_v None pos2.
Proof.
  intros H. assert (A01 : 0%nat ∈ [0; 1]%nat /\ 1%nat ∈ [0; 1]%nat) by (rewrite !elem_of_cons; tauto).
  assert (HP : pos2 0%nat = V3 (1/5) 1 1 /\ (pos2 1%nat = V3 (-2/5) 1 1 \/ pos2 1%nat = V3 (48/5) 1 1)).
  { destruct H as [H|H]; rewrite !H by tauto; [|rewrite !ex_wrap]; cbn [ex_pos]; split; try done; [by left|by right]. }
  assert (HX : exists x1, pos2 1%nat = V3 x1 1 1 /\ (1/5 - x1 = 3/5 \/ 1/5 - x1 = -47/5)).
  { destruct HP as [_ [E|E]]; rewrite E; eexists; (split; [done|]); [left|right]; lra. }
  destruct HX as (x1 & E1 & HX). destruct HP as [E0 _]. split.
  - intros i j Hi Hj Hij _ r.
    assert (HD : (yDr ex_y (pos2 i) (pos2 j)).1 = 9/25 /\ MdGradSpec.off_faces (yB ex_y) (pos2 i) (pos2 j)).
    { cbn [ex_y yAtoms] in Hi, Hj. rewrite !elem_of_cons, elem_of_nil in Hi, Hj. cbn [ex_y yDr yB].
      destruct Hi as [->|[->|[]]], Hj as [->|[->|[]]]; try done; rewrite E0, E1; apply ex_pair; lra. }
    destruct HD as [HD HO]. assert (Hr : r = 3/5).
    { unfold r. rewrite HD. replace (9/25) with (3/5 * (3/5)) by lra. rewrite sqrt_square; lra. }
    rewrite Hr. cbn [ex_y yCutsq yTy yFr]. split; [done|]. split; [lra|]. split; [lra|]. split; [lra|]. intros _.
    unfold ex_v. auto_derive; [done|lra].
  - intros k m g Hk. cbn [ex_y yKinds] in Hk. by apply elem_of_nil in Hk.
  - done.
Qed.

Example charged_example :
  exists p pos2 F2 p2 w L,
  md_ok ex_y 2 (1/2) 1 (V3 6 6 6)%Z /\ list_built ex_y 2 2 1 (1/2) 1 p /\ nearby ex_y ex_pos /\ all_waves (ortho_kb ex_box) 1 L /\ L <> [] /\
  charged_calc ex_y (ew_read 1 1 1) ex_q (ortho_kb ex_box) 1 ex_pos (fun _ => V3 7 7 7) p None = Ok (pos2, F2, p2, w) /\
  charged_smooth ex_y 1 ex_v None pos2 /\ vsum_over [0; 1]%nat F2 = V3 0 0 0 /\
  forall ed, is_derive (fun t => charged_energy ex_y ex_q 1 1 1 ex_v None (ortho_kb ex_box) L (displaced pos2 ed t)) 0 (- work [0; 1]%nat F2 ed).
Proof.
  destruct nve_example as (_ & s & _ & _ & Ho & Hg & _ & Hn & _ & Hb & _).
  assert (HE : ewald_box (ortho_kb ex_box)) by (left; eexists; split; [apply ex_a_box|done]). pose proof (ewald_dual _ HE) as D.
  assert (IC : in_cutoff (ortho_kb ex_box) 1 (V3 1 0 0)%Z).
  { split; [done|]. change (ortho_kb ex_box) with (cube_kb 10). rewrite cube_normSq by lra. unfold normSq, vdot, vmap. cbn [vx vy vz].
    pose proof PI_RGT_0. pose proof PI_4. nra. }
  destruct (makeWaves_spec (ew_read 1 1 1) (ortho_kb ex_box) 1 D ltac:(lra)) as [(w & Ew & W & Hne)|[_ HN]]; [|by destruct (HN _ IC)].
  set (L := wInt w ++ map vneg (wInt w)). assert (HL : all_waves (ortho_kb ex_box) 1 L) by (by eapply all_waves_ex).
  destruct (charged_forces_are_gradient ex_y ex_q 1 1 1 1 (ortho_kb ex_box) 2 2 1 (1/2) 1 (V3 6 6 6)%Z ex_v None L ex_pos (fun _ => V3 7 7 7) (mX s) None
    Ho Hg ltac:(lra) ltac:(lra) ltac:(lra) ltac:(lra) ltac:(lra) ltac:(left; eexists; split; [apply ex_a_box|done])) as [(pos2 & F2 & p2 & w' & E & _ & _ & _ & _ & HG & HM)|[E HT]]; try done.
  - intros a _. right. unfold ex_q. rewrite Rabs_R1. rewrite <- Rinv_1. apply Rinv_lt_contravar; lra.
  - by left.
  - exists (mX s), pos2, F2, p2, w', L. split; [done|]. split; [done|]. split; [done|]. split; [done|]. split; [unfold L; by destruct (wInt w)|]. split; [done|].
    assert (HS : charged_smooth ex_y 1 ex_v None pos2).
    { apply ex_apart. revert E. unfold charged_calc. intros ([q2 x2] & Hl & E)%obind_Ok.
      assert (q2 = pos2) as ->.
      { revert E. intros (o & _ & E)%obind_Ok. destruct o; [|done]. apply obind_Ok in E as (? & _ & E). apply obind_Ok in E as (? & _ & E). by injection E. }
      clear E. revert Hl. unfold md_list, md_update. intros (c & _ & Hl)%obind_Ok. destruct c; [injection Hl as <- <-; by left|right].
      revert Hl. unfold pl_refresh. intros (? & _ & Hl)%obind_Ok. apply obind_Ok in Hl as (p1 & _ & Hl). apply obind_Ok in Hl as ([q2 p3] & HF & Hl).
      apply obind_Ok in Hl as (p4 & _ & [= -> _]). revert HF. cbn [ex_y yAtoms foldM]. intros ([q3 p5] & H1 & H2)%obind_Ok. apply obind_Ok in H2 as ([q4 p6] & H2 & [= -> _]).
      revert H1 H2. unfold pl_enter. intros (? & _ & [= <- _])%obind_Ok (? & _ & [= <- _])%obind_Ok.
      intros a Ha. rewrite !elem_of_cons, elem_of_nil in Ha. unfold PairListModel.move. destruct Ha as [->|[->|[]]]; done. }
    split; [done|]. split; [by apply HM|]. by apply HG.
  - exfalso. destruct HT as [HT|[HT|[(l & [Hnd Hcl] & HT)|HT]]].
    + by apply few_not_crowded in HT; [|cbn; lia].
    + cbn in HT. lia.
    + assert (l ⊆ [(0, 1)%nat]) as Hsub.
      { intros [i j] Hx. apply Hcl in Hx as (Hi & Hj & Hlt & _). cbn [fst snd ex_y yAtoms] in *. rewrite !elem_of_cons, elem_of_nil in Hi, Hj.
        apply elem_of_list_singleton. f_equal; lia. }
      pose proof (submseteq_length _ _ (NoDup_submseteq l _ Hnd Hsub)). cbn in *. lia.
    + by apply (HT _ IC).
Qed.

(** C85.  The values that MdEwaldPotential keeps, after any calls of set, makeWaves, unsetWaves, unsetEnergy, unsetStress, kSpaceEnergy,
    kSpaceStress, rSpaceEnergy and moves of atoms, in a box that stays the same: kSpaceEnergy() and kSpaceStress() give
    the values for the current parameters and positions, or throw if no wave is within the cutoff. *)
Theorem kept_values_partial :
  forall atoms charge rsum eps alpha rc kc kb pos l s,
  eps <> 0 -> 0 < alpha -> 0 < kc -> ewald_box kb -> Forall fair_call l ->
  co_run atoms charge rsum (co_init eps alpha rc kc kb pos) l = Ok s ->
  oBox s = kb /\
  (exists L, all_waves kb (oKc s) L) /\
  ((exists s' x, co_energy atoms charge s = Ok (s', x) /\
      forall L, all_waves kb (oKc s) L -> x = kspace_energy (eEps (oE s)) (eAlpha (oE s)) kb L atoms charge (oPos s)) \/
   (co_energy atoms charge s = Throw /\ forall n, ~ in_cutoff kb (oKc s) n)) /\
  ((exists s' S, co_stress atoms charge s = Ok (s', S) /\
      forall L E, all_waves kb (oKc s) L ->
      is_derive (fun t => kspace_energy (eEps (oE s)) (eAlpha (oE s)) (strained_cell E t (kBrav kb)) L atoms charge (fun a => strain E t (oPos s a))) 0
        (- (kVol kb * contract S E))) \/
   (co_stress atoms charge s = Throw /\ forall n, ~ in_cutoff kb (oKc s) n)).
Proof.
  intros atoms charge rsum eps alpha rc kc kb pos l s He Ha Hk Hb Hl Hr. pose proof (ewald_dual kb Hb) as D.
  assert (K : kept atoms charge kb s) by (apply (run_kept atoms charge rsum kb D l _ s (init_kept atoms charge kb eps alpha rc kc pos He Ha Hk) Hl Hr)).
  split; [apply K|].
  assert (HN : (exists s' w, co_need s = Ok (s', w)) \/ (co_need s = Throw /\ oW s = None /\ forall n, ~ in_cutoff kb (oKc s) n)).
  { unfold co_need. destruct (oW s) as [w|] eqn:Ew; [left; eauto|]. rewrite (kp_box _ _ _ _ K).
    destruct (makeWaves_spec (oE s) kb (oKc s) D (kp_kc _ _ _ _ K)) as [(w & -> & _)|[-> Hn]]; cbn [obind]; [left; eauto|by right]. }
  assert (HL : exists L, all_waves kb (oKc s) L).
  { destruct HN as [(s' & w & HN)|(_ & _ & HN)].
    - destruct (need_kept atoms charge kb D s s' w K HN) as (_ & W & _). eexists. by eapply all_waves_ex.
    - exists []. split; [constructor|]. intros n. rewrite elem_of_nil. split; [done|]. intros H. by apply (HN n). }
  split; [done|]. split.
  - destruct (co_energy atoms charge s) as [[s' x]| |] eqn:E.
    + left. exists s', x. split; [done|]. by apply (energy_kept atoms charge kb D s s' x K E).
    + right. split; [done|]. revert E. unfold co_energy. destruct (oKE s); [done|]. destruct HN as [(s' & w & HN)|(HN & _ & Hn)]; [|done].
      destruct (need_kept atoms charge kb D s s' w K HN) as (K' & W & E1 & E2 & _). rewrite HN. cbn [obind]. rewrite (kp_box _ _ _ _ K').
      destruct HL as [L HL]. rewrite <- E1, <- E2 in W. rewrite <- E2 in HL. by rewrite (energy_full (oE s') kb (oKc s') w L atoms charge (oPos s') (kp_ok _ _ _ _ K') D W HL).
    + exfalso. revert E. unfold co_energy. destruct (oKE s); [done|]. destruct HN as [(s' & w & HN)|(HN & _ & Hn)]; [|by rewrite HN].
      destruct (need_kept atoms charge kb D s s' w K HN) as (K' & W & E1 & E2 & _). rewrite HN. cbn [obind]. rewrite (kp_box _ _ _ _ K').
      destruct HL as [L HL]. rewrite <- E1, <- E2 in W. rewrite <- E2 in HL. by rewrite (energy_full (oE s') kb (oKc s') w L atoms charge (oPos s') (kp_ok _ _ _ _ K') D W HL).
  - destruct (co_stress atoms charge s) as [[s' x]| |] eqn:E.
    + left. exists s', x. split; [done|]. by apply (stress_kept atoms charge kb D s s' x K E).
    + right. split; [done|]. revert E. unfold co_stress. destruct (oKS s); [done|]. destruct HN as [(s' & w & HN)|(HN & _ & Hn)]; [|done].
      destruct (need_kept atoms charge kb D s s' w K HN) as (K' & W & E1 & E2 & _). rewrite HN. cbn [obind]. rewrite (kp_box _ _ _ _ K'), E1.
      destruct (stress_eq (oE s) kb (oKc s) w (kp_ok _ _ _ _ K) D W atoms charge (oPos s')) as (S & -> & _). done.
    + exfalso. revert E. unfold co_stress. destruct (oKS s); [done|]. destruct HN as [(s' & w & HN)|(HN & _ & Hn)]; [|by rewrite HN].
      destruct (need_kept atoms charge kb D s s' w K HN) as (K' & W & E1 & E2 & _). rewrite HN. cbn [obind]. rewrite (kp_box _ _ _ _ K'), E1.
      destruct (stress_eq (oE s) kb (oKc s) w (kp_ok _ _ _ _ K) D W atoms charge (oPos s')) as (S & -> & _). done.
Qed.
Print Assumptions kept_values_partial.

(** The r-space energy is current as long as no parameter of the interaction is set. *)
Definition no_set (c : co_call) : Prop := match c with CSet (Some _) _ => False | _ => True end.
Theorem kept_rspace_partial :
  forall atoms charge rsum eps alpha rc kc kb pos l s, Forall no_set l ->
  co_run atoms charge rsum (co_init eps alpha rc kc kb pos) l = Ok s ->
  (co_rEnergy rsum s).2 = rsum (oE s) (oBox s) (oPos s).
Proof.
  intros atoms charge rsum eps alpha rc kc kb pos l s Hl Hr.
  set (P := fun s => forall x, oRE s = Some x -> x = rsum (oE s) (oBox s) (oPos s)).
  assert (HN : forall s s' w, co_need s = Ok (s', w) -> oRE s' = oRE s /\ oE s' = oE s /\ oBox s' = oBox s /\ oPos s' = oPos s).
  { intros s0 s' w. unfold co_need. destruct (oW s0); [by intros [= <- <-]|]. by intros (? & _ & [= <- <-])%obind_Ok. }
  assert (HP : P s).
  { revert Hr. assert (H0 : P (co_init eps alpha rc kc kb pos)) by done. revert H0. generalize (co_init eps alpha rc kc kb pos). unfold co_run.
    induction l as [|c l IH]; intros s0 H0; cbn [foldM]; [by intros [= <-]|]. apply Forall_cons in Hl as [Hc Hl].
    intros (s1 & H1 & H2)%obind_Ok. apply (IH Hl s1); [|done]. clear IH H2. destruct c as [[n|] v| | | | | | |q|kb' q]; cbn [co_do] in H1.
    - done.
    - injection H1 as <-. exact H0.
    - unfold co_makeWaves in H1. apply obind_Ok in H1 as (w & _ & [= <-]). exact H0.
    - injection H1 as <-. exact H0.
    - injection H1 as <-. exact H0.
    - apply obind_Ok in H1 as ([s2 x] & H1 & [= <-]). revert H1. unfold co_energy. destruct (oKE s0); [by intros [= <- <-]|].
      intros ([s3 w] & Hn & (y & _ & [= <- <-])%obind_Ok)%obind_Ok. apply HN in Hn as (A1 & A2 & A3 & A4). unfold P in *. cbn [oRE oE oBox oPos]. by rewrite A1, A2, A3, A4.
    - apply obind_Ok in H1 as ([s2 x] & H1 & [= <-]). revert H1. unfold co_stress. destruct (oKS s0); [by intros [= <- <-]|].
      intros ([s3 w] & Hn & (y & _ & [= <- <-])%obind_Ok)%obind_Ok. apply HN in Hn as (A1 & A2 & A3 & A4). unfold P in *. cbn [oRE oE oBox oPos]. by rewrite A1, A2, A3, A4.
    - injection H1 as <-. unfold co_rEnergy. destruct (oRE s0) eqn:E; [exact H0|]. unfold P. cbn [fst oRE oE oBox oPos]. by intros x [= <-].
    - injection H1 as <-. done.
    - injection H1 as <-. done. }
  unfold co_rEnergy. destruct (oRE s) as [x|] eqn:E; [|done]. cbn [snd]. by apply HP.
Qed.
Print Assumptions kept_rspace_partial.

(** Missing: changes of the box.  NphIntegrator::integrateStep1 changes the box but never calls unsetWaves: ksq_ and g_ stay those of the
    old box, so kSpaceEnergy() is wrong from the second step on.  Here with a unit charge at the origin of a cube. *)
Theorem kept_box_refuted :
  ~ (forall atoms charge rsum eps alpha rc kc kb pos l s s' x L,
     eps <> 0 -> 0 < alpha -> 0 < kc -> ewald_box kb -> Forall (fun c => match c with CBox kb' _ => ewald_box kb' | c => fair_call c end) l ->
     co_run atoms charge rsum (co_init eps alpha rc kc kb pos) l = Ok s -> co_energy atoms charge s = Ok (s', x) -> all_waves (oBox s) (oKc s) L ->
     x = kspace_energy (eEps (oE s)) (eAlpha (oE s)) (oBox s) L atoms charge (oPos s)).
Proof.
  intros H. destruct (stale_box (fun _ _ _ => 0)) as (s & s' & x & Hr & Hx & (L & HL) & Hlt). specialize (Hlt L HL).
  pose proof PI_RGT_0 as HP.
  assert (B : forall l, 0 < l -> ewald_box (cube_kb l)) by (intros l Hl; left; eexists; split; [by apply cube_a_box|done]).
  assert (HX : x = kspace_energy (eEps (oE s)) (eAlpha (oE s)) (oBox s) L [0%nat] unit_charge (oPos s)).
  { eapply (H [0%nat] unit_charge (fun _ _ _ => 0) 1 1 1 1 (cube_kb (2 * PI)) origin); [| | | | |exact Hr|exact Hx|exact HL]; [lra..|apply B; lra|].
    apply Forall_cons. split; [done|]. apply Forall_cons. split; [apply B; lra|by apply Forall_nil]. }
  lra.
Qed.
Print Assumptions kept_box_refuted.

(** Missing: set() of a parameter of the interaction.  MdEwaldPotential::set unsets the waves and the k-space values but not
    rSpaceEnergy_.  Here with two atoms at distance 3/5, as alpha is set from 1 to 2. *)
Definition ex_rsum (e : ewald) (_ : kbox) (pos : nat -> vec3 R) : R := pairs_of ex_y (short_c ex_q (eEps e) (eAlpha e) (eRc e)) pos.
Lemma ex_rsum_val alpha : ex_rsum (ew_read 1 alpha 1) (cube_kb 1) ex_pos = screened 1 alpha (1 * 1) (3/5).
Proof.
  unfold ex_rsum, pairs_of, pair_energy, sum_over. cbn [ex_y yAtoms map Rsum yMask yTy yB ortho_bd bDist]. rewrite !decide_False by lia. rewrite decide_True by lia.
  change (distanceSq ex_box (ex_pos 0) (ex_pos 1)) with (distanceSq ex_box (V3 (1/5) 1 1) (V3 (-2/5) 1 1)).
  rewrite (ex_dist _ _ _ _ _ _ _ _ eq_refl eq_refl), !(sep_in 10 1 1) by (apply Rabs_le; lra). rewrite sep_in by (apply Rabs_le; lra). cbn [fst].
  replace ((1/5 - -2/5) * (1/5 - -2/5) + (1 - 1) * (1 - 1) + (1 - 1) * (1 - 1)) with (3/5 * (3/5)) by lra.
  unfold short_c. cbn [ew_read ew_derive eEps eAlpha eRc]. destruct (Rlt_dec _ _); [|lra]. rewrite sqrt_square by lra. unfold ex_q. rewrite !decide_False by lia. lra.
Qed.
Theorem kept_set_refuted :
  ~ (forall atoms charge rsum eps alpha rc kc kb pos l s,
     eps <> 0 -> 0 < alpha -> 0 < kc -> ewald_box kb -> Forall fair_call l ->
     co_run atoms charge rsum (co_init eps alpha rc kc kb pos) l = Ok s -> (co_rEnergy rsum s).2 = rsum (oE s) (oBox s) (oPos s)).
Proof.
  intros H. specialize (H [0; 1]%nat unit_charge ex_rsum 1 1 1 1 (cube_kb 1) ex_pos [CREnergy; CSet (Some NAlpha) 2] _ ltac:(lra) ltac:(lra) ltac:(lra)
    ltac:(left; exists (box [SetCub 1]); split; [apply cube_a_box; lra|done])
    ltac:(apply Forall_cons; split; [done|]; apply Forall_cons; split; [cbn [fair_call]; lra|by apply Forall_nil]) eq_refl).
  cbn [co_init co_rEnergy co_set co_unsetWaves oRE oE oBox oPos fst snd] in H.
  change (ex_rsum (ew_read 1 1 1) (cube_kb 1) ex_pos = ex_rsum (ew_read 1 2 1) (cube_kb 1) ex_pos) in H. rewrite !ex_rsum_val in H.
  unfold screened in H. pose proof (erfc_lt (1 * (3/5)) (2 * (3/5)) ltac:(lra)) as HE. pose proof PI_RGT_0 as HP.
  assert (0 < 1 * 1 / (4 * PI * 1)) as HC by (apply Rdiv_lt_0_compat; lra). apply Rmult_eq_reg_l in H; [|lra]. lra.
Qed.
Print Assumptions kept_set_refuted.
