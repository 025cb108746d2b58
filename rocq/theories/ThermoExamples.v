(** Examples for properties C90 to C93. *)
From Coq Require Import Reals Lra.
From Coquelicot Require Import Coquelicot.
From stdpp Require Import gmap.
From Verif Require Import Base Vec3 BoxSpec OrthoModel OrthoSpec OrthoProofs OrthoProps MonoModel MonoSpec MonoProofs MonoProps.
From Verif Require Import McCellModel DomainModel DomainProofs SpeciesModel SpeciesProofs.
From Verif Require Import CellListModel CellListSpec CellListProofs CellListProps PairListModel PairListSpec PairListProofs PairListProps.
From Verif Require Import EnergyModel EnergySpec EnergyProofs MoveModel MoveSpec MoveProofs EnergyProps MoveProps MdModel MdSpec MdProofs MdForces MdProps.
From Verif Require Import ThermoModel ThermoSpec ThermoProofs ThermoDpd ThermoLang ThermoArch ThermoProps.
From Coq Require Import Reals Lra.
Local Open Scope R_scope.

(** ** Nose-Hoover *)
Lemma vscale_1 v : vscale 1 v = v.
Proof. destruct v as [a b c]. unfold vscale. cbn [vx vy vz]. f_equal; ring. Qed.
Lemma nh_integrate1_1 y F s : nh_integrate1 y 1 F s = integrate1 y F s.
Proof.
  unfold nh_integrate1, integrate1. generalize (yAtoms y). intros l. revert s. induction l as [|a l IH]; intros [pos vel]; cbn [fold_left]; [done|].
  rewrite vscale_1. apply IH.
Qed.
Lemma nh_integrate2_1 y F v : nh_integrate2 y 1 F v = integrate2 y F v.
Proof.
  unfold nh_integrate2, integrate2. generalize (yAtoms y). intros l. revert v. induction l as [|a l IH]; intros v; cbn [fold_left]; [done|].
  rewrite vscale_1. apply IH.
Qed.
Lemma nh_step_1 {X} y nu T (calc : (nat -> vec3 R) -> (nat -> vec3 R) -> X -> outcome ((nat -> vec3 R) * (nat -> vec3 R) * X)) u m :
  nh_factor y (nXi u) (nXd u) = 1 -> vv_step y calc (nS u) = Ok m ->
  nh_step y nu T calc u = Ok (Nh m (nXi u + nXd u * (1 / 2 * yDt y) + nh_xidot y nu T (mVel m) * (1 / 2 * yDt y)) (nh_xidot y nu T (mVel m))).
Proof.
  intros Hf. unfold vv_step, nh_step. cbv zeta. rewrite Hf, nh_integrate1_1. destruct (integrate1 _ _ _) as [pos vel].
  intros ([[pos2 F] x] & -> & [= <-])%obind_Ok. cbn [obind mVel]. by rewrite nh_integrate2_1.
Qed.

(** Two repelling atoms at the kinetic temperature 1/3 that is asked for: a step and the step back. *)
Example nose_hoover_example :
  exists p m s' t,
  md_ok ex_y 2 (1/2) 1 (V3 6 6 6)%Z /\ groups_ok ex_y /\ pl_state 61 2 2 1 (1/2) 1 p /\ nearby ex_y ex_pos /\
  md_start ex_y ex_pos ex_vel (fun _ => V3 7 7 7) p = Ok m /\
  nh_run ex_y (1 / 2) (1/3) (nve_calc ex_y) 1 (nh_setup ex_y (1 / 2) (1/3) m) = Ok s' /\
  nh_run ex_y (1 / 2) (1/3) (nve_calc ex_y) 1 (nh_reversed s') = Ok t /\
  nh_steady ex_y ex_box 2 (1/3) 1 (nh_setup ex_y (1 / 2) (1/3) m) /\ nh_steady ex_y ex_box 2 (1/3) 1 (nh_reversed s') /\
  mPos (nS s') 0%nat = V3 (303/1000) 1 1 /\ mVel (nS s') 0%nat <> mVel m 0%nat /\ mPos (nS t) 0%nat = V3 (1/5) 1 1.
Proof.
  destruct nve_example as (p & s & s' & t & Ho & Hg & Hst & Hn & Hs & Hb & Hr & Hr' & S1 & S2 & P & P' & Pt & Hne & Vt).
  destruct (start_facts ex_y 2 2 1 (1/2) 1 _ ex_pos ex_vel _ p s Ho Hg Hst Hn Hs) as (_ & Hv & _ & HF).
  assert (E1 : vv_step ex_y (nve_calc ex_y) s = Ok s').
  { revert Hr. unfold nve_run. cbn [vv_run]. by intros (? & -> & [= ->])%obind_Ok. }
  assert (E2 : vv_step ex_y (nve_calc ex_y) (reversed s') = Ok t).
  { revert Hr'. unfold nve_run. cbn [vv_run]. by intros (? & -> & [= ->])%obind_Ok. }
  assert (KT : forall u : nat -> vec3 R, kinetic_temperature ex_y u = (normSq (u 0%nat) + normSq (u 1%nat)) / 6).
  { intros u. unfold kinetic_temperature, kinetic_energy, sum_over. cbn [ex_y yAtoms yMass map Rsum length INR]. field. }
  assert (X0 : nh_xidot ex_y (1 / 2) (1/3) (mVel s) = 0).
  { rewrite nh_xidot_spec, KT, !Hv. unfold ex_vel. rewrite decide_True, decide_False by done. unfold normSq, vdot. cbn [vx vy vz]. field. }
  set (u0 := nh_setup ex_y (1 / 2) (1/3) s).
  assert (F0 : nh_factor ex_y (nXi u0) (nXd u0) = 1).
  { unfold nh_factor, u0, nh_setup. cbn [nXi nXd]. rewrite X0. transitivity (exp 0); [f_equal; ring|apply exp_0]. }
  pose proof (nh_step_1 ex_y (1 / 2) (1/3) (nve_calc ex_y) u0 s' F0 E1) as G1.
  set (x1 := nh_xidot ex_y (1 / 2) (1/3) (mVel s')) in *.
  set (u1 := Nh s' (nXi u0 + nXd u0 * (1 / 2 * yDt ex_y) + x1 * (1 / 2 * yDt ex_y)) x1) in *.
  assert (I1 : nXi u1 = x1 * (1 / 2 * yDt ex_y)).
  { unfold u1. cbn [nXi]. unfold u0, nh_setup. cbn [nXi nXd]. rewrite X0. ring. }
  assert (F1 : nh_factor ex_y (nXi (nh_reversed u1)) (nXd (nh_reversed u1)) = 1).
  { unfold nh_factor, nh_reversed. cbn [nXi nXd]. rewrite I1. cbn [u1 nXd]. transitivity (exp 0); [f_equal; ring|apply exp_0]. }
  pose proof (nh_step_1 ex_y (1 / 2) (1/3) (nve_calc ex_y) (nh_reversed u1) t F1 E2) as G2.
  match type of G2 with _ = Ok ?z => set (u2 := z) in * end.
  assert (R1 : nh_run ex_y (1 / 2) (1/3) (nve_calc ex_y) 1 u0 = Ok u1) by (cbn [nh_run]; by rewrite G1).
  assert (R2 : nh_run ex_y (1 / 2) (1/3) (nve_calc ex_y) 1 (nh_reversed u1) = Ok u2) by (cbn [nh_run]; by rewrite G2).
  assert (HALF : forall u : nhs plist, nh_factor ex_y (nXi u) (nXd u) = 1 -> nearby ex_y (half_step ex_y (nS u)) ->
    nearby ex_y (nh_half ex_y (exp (- (yDt ex_y / 2 * (nXi u + yDt ex_y / 2 * nXd u)))) (nS u))).
  { intros u Hf. apply nearby_ext. intros a _. rewrite nh_factor_eq, Hf. unfold nh_half. by rewrite vscale_1. }
  assert (ST : forall u v, nh_run ex_y (1 / 2) (1/3) (nve_calc ex_y) 1 u = Ok v -> nh_factor ex_y (nXi u) (nXd u) = 1 ->
    nve_run ex_y 1 (nS u) = Ok (nS v) -> steady ex_y ex_box 1 (nS u) -> nh_steady ex_y ex_box 2 (1/3) 1 u).
  { intros u v Hu Hf Hv' H [|[|k]] z Hk Hz; [| |lia].
    - injection Hz as <-. destruct (H 0%nat (nS u) ltac:(lia) eq_refl) as [A1 A2]. split; [|done]. intros _. apply HALF; [done|]. apply A1. lia.
    - rewrite Hu in Hz. injection Hz as <-. destruct (H 1%nat (nS v) ltac:(lia) Hv') as [A1 A2]. split; [lia|done]. }
  exists p, s, u1, u2. split; [done|]. split; [done|]. split; [done|]. split; [done|]. split; [done|]. split; [done|]. split; [done|].
  split; [by apply (ST u0 u1)|]. split; [by apply (ST _ u2)|]. done.
Qed.

(** ** Dissipative particle dynamics *)

(** Setting up two atoms: atom 0 at x = 1/5, atom 1 at x = 48/5, and a pair list that lasts while they move by 1/4. *)
Lemma ex_begin_at pos0 vel0 : (forall a, near_cell_of (oBrav ex_box) (pos0 a)) ->
  shift1 ex_box (pos0 0%nat) = V3 (1/5) 1 1 -> shift1 ex_box (pos0 1%nat) = V3 (48/5) 1 1 ->
  exists p s, pl_state 61 2 2 1 (1/2) 1 p /\ md_start ex_y pos0 vel0 (fun _ => V3 7 7 7) p = Ok s /\
  list_built ex_y 2 2 1 (1/2) 1 (mX s) /\ mPos s 0%nat = V3 (1/5) 1 1 /\ mPos s 1%nat = V3 (48/5) 1 1 /\
  forall q x0 x1, q 0%nat = V3 x0 1 1 -> q 1%nat = V3 x1 1 1 -> Rabs (x0 - 1/5) <= 1/4 -> Rabs (x1 - 48/5) <= 1/4 ->
     pl_isCurrent (bDist (yB ex_y)) q (mX s) = Ok true.
Proof.
  intros Hnear W0 W1. destruct ex_wf as [lat W]. pose proof ex_ok as Ho.
  assert (Hg : groups_ok ex_y) by (intros k m g Hk; by apply elem_of_nil in Hk).
  destruct (init_state 61 2 2 1 (1/2) 1 ltac:(lia) ltac:(lia) ltac:(lia) ltac:(lra)) as (p & Hp & Hst). exists p.
  assert (Hat : forall a, a ∈ [0; 1]%nat -> (a < 2)%nat /\ near_cell_of (oBrav ex_box) (pos0 a)).
  { intros a Ha. split; [rewrite !elem_of_cons, elem_of_nil in Ha; lia|apply Hnear]. }
  pose proof (boundary_facts _ (y_boundary _ _ _ _ _ Ho)) as [F1 F2 F3 F4 F6 F5]. cbn [ex_y yB] in F1, F2, F3, F4, F5, F6.
  assert (Hat' : forall a, a ∈ [0; 1]%nat -> (a < 2)%nat /\ primary (bGen (ortho_bd ex_box) (bWrap (ortho_bd ex_box) (pos0 a)))).
  { intros a Ha. split; [by apply Hat|]. by apply F5, Hat. }
  assert (HR : exists pos1 p1, pl_refresh 61 (bGen (ortho_bd ex_box)) (bDist (ortho_bd ex_box)) (bWrap (ortho_bd ex_box)) (bLens (ortho_bd ex_box)) (fun _ _ => false) [0; 1]%nat pos0 p = Ok (pos1, p1) /\
     forall a, a ∈ [0; 1]%nat -> pos1 a = shift1 ex_box (pos0 a)).
  { destruct (builds_general 61 2 2 1 _ _ _ _ (oBrav ex_box) (fun _ _ => false) (1/2) 1 (V3 6 6 6)%Z [0; 1]%nat pos0 p ltac:(lra) F1 F2 F3 Hst
      (mo_grid _ _ _ _ _ Ho) (mo_nodup _ _ _ _ _ Ho) Hat') as [(pos1 & p1 & l & E & Hpp & _)|(_ & [Hbad|[Hbad|(l & [Hnd Hcl] & Hbad)]])].
    - exists pos1, p1. split; [done|]. intros a Ha. rewrite Hpp. by rewrite decide_True.
    - by apply few_not_crowded in Hbad; [|cbn; lia].
    - cbn in Hbad. lia.
    - exfalso. assert (l ⊆ [(0, 1)%nat]) as Hsub.
      { intros [i j] Hx. apply Hcl in Hx as (Hi & Hj & Hlt & _). cbn [fst snd] in *. rewrite !elem_of_cons, elem_of_nil in Hi, Hj.
        apply elem_of_list_singleton. f_equal; lia. }
      pose proof (submseteq_length _ _ (NoDup_submseteq l _ Hnd Hsub)). cbn in *. lia. }
  destruct HR as (pos1 & p1 & Href & Hpos1).
  assert (Q0 : pos1 0%nat = V3 (1/5) 1 1) by (rewrite Hpos1 by (rewrite !elem_of_cons; tauto); done).
  assert (Q1 : pos1 1%nat = V3 (48/5) 1 1) by (rewrite Hpos1 by (rewrite !elem_of_cons; tauto); done).
  assert (Hb1 : list_built ex_y 2 2 1 (1/2) 1 p1) by (exists p, pos0, pos1; split; [done|]; split; [|done]; intros a _; apply Hnear).
  assert (Hcur : forall q x0 x1, q 0%nat = V3 x0 1 1 -> q 1%nat = V3 x1 1 1 -> Rabs (x0 - 1/5) <= 1/4 -> Rabs (x1 - 48/5) <= 1/4 ->
     pl_isCurrent (distanceSq ex_box) q p1 = Ok true).
  { intros q x0 x1 E0 E1 H0 H1.
    destruct (current_general 61 2 2 1 _ _ _ _ (oBrav ex_box) (fun _ _ => false) (1/2) 1 (V3 6 6 6)%Z [0; 1]%nat pos0 p pos1 p1 ltac:(lra) F1 F2 F3 Hst
      (mo_grid _ _ _ _ _ Ho) (mo_nodup _ _ _ _ _ Ho) Hat' ltac:(intros r' q' m A1 A2 A3; apply (y_min _ _ _ _ _ Ho r' q' m A1 A2 A3); lra) Href q) as (c & Hc & Hiff & _).
    cbn [ortho_bd bDist] in Hc. rewrite Hc. f_equal. apply Hiff. cbn [ortho_bd bDist].
    assert (B : forall x c', Rabs (x - c') <= 1/4 -> distanceSq ex_box (V3 x 1 1) (V3 c' 1 1) <= 1/2/2 * (1/2/2)).
    { intros x c' Hx. rewrite (ex_dist _ _ _ _ _ _ _ _ eq_refl eq_refl). rewrite sep_in by lra. rewrite !sep_in by (apply Rabs_le; lra). cbn [fst].
      assert (- (1/4) <= x - c' <= 1/4) by (revert Hx; unfold Rabs; destruct (Rcase_abs _); lra). nra. }
    intros a Ha. rewrite !elem_of_cons, elem_of_nil in Ha. destruct Ha as [->|[->|[]]].
    - rewrite E0, Q0. by apply B.
    - rewrite E1, Q1. by apply B. }
  assert (Hn1 : nearby ex_y pos1).
  { intros a Ha. cbn [ex_y yAtoms] in Ha. rewrite !elem_of_cons, elem_of_nil in Ha. destruct Ha as [->|[->|[]]]; rewrite ?Q0, ?Q1; apply ex_near_x; lra. }
  assert (HL : md_list ex_y pos1 p1 = Ok (pos1, p1)).
  { unfold md_list, md_update. cbn [ex_y yB ortho_bd bDist]. rewrite (Hcur pos1 _ _ Q0 Q1); [done|rewrite Rminus_diag_eq, Rabs_R0; lra..]. }
  destruct (md_calc_total ex_y 2 2 1 (1/2) 1 _ Ho p1 pos1 (fun _ => V3 7 7 7) Hg Hb1 Hn1 ltac:(eauto)) as [[[q G] x] Hc].
  assert (q = pos1 /\ x = p1) as [-> ->].
  { revert Hc. unfold md_calc. rewrite HL. cbn [obind]. intros (o & _ & H)%obind_Ok. destruct o as [F0|]; [|done]. by injection H as <- _ <-. }
  exists (Mds pos1 vel0 G p1). split; [done|]. split.
  { unfold md_start. cbn [ex_y yM yB yMask yAtoms]. rewrite Href. cbn [obind]. fold ex_y. rewrite Hc. done. }
  cbn [mX mPos]. done.
Qed.

Lemma ex_begin :
  exists p s, pl_state 61 2 2 1 (1/2) 1 p /\ md_start ex_y ex_pos ex_vel (fun _ => V3 7 7 7) p = Ok s /\
  list_built ex_y 2 2 1 (1/2) 1 (mX s) /\ mPos s 0%nat = V3 (1/5) 1 1 /\ mPos s 1%nat = V3 (48/5) 1 1 /\
  forall q x0 x1, q 0%nat = V3 x0 1 1 -> q 1%nat = V3 x1 1 1 -> Rabs (x0 - 1/5) <= 1/4 -> Rabs (x1 - 48/5) <= 1/4 ->
     pl_isCurrent (bDist (yB ex_y)) q (mX s) = Ok true.
Proof. apply ex_begin_at; [intros; apply ex_near|by rewrite ex_wrap..]. Qed.

(** A separation through the face. *)
Lemma ex_dr x0 x1 : 5 < x1 - x0 -> 0 < x0 - x1 + 10 < 1 ->
  distanceSq_dr ex_box (V3 x0 1 1) (V3 x1 1 1) = ((x0 - x1 + 10) * (x0 - x1 + 10), V3 (x0 - x1 + 10) 0 0) /\
  distanceSq_dr ex_box (V3 x1 1 1) (V3 x0 1 1) = ((x0 - x1 + 10) * (x0 - x1 + 10), V3 (- (x0 - x1 + 10)) 0 0).
Proof.
  destruct ex_wf as [lat W]. intros H1 H2.
  assert (D : distanceSq_dr ex_box (V3 x0 1 1) (V3 x1 1 1) = ((x0 - x1 + 10) * (x0 - x1 + 10), V3 (x0 - x1 + 10) 0 0)).
  { unfold distanceSq_dr. rewrite !(sep_eq _ _ _ _ _ _ W) by lia. cbn [vget vx vy vz].
    rewrite sep_lo by (try lra; rewrite Rabs_left by lra; lra). rewrite !sep_in by (apply Rabs_le; lra). cbn [fst]. f_equal; [lra|]. f_equal; lra. }
  split; [done|]. rewrite (ortho_dr_sym ex_box (V3 x0 1 1) (V3 x1 1 1) ex_a_box), D. cbn [fst snd]. unfold vscale. cbn [vx vy vz]. f_equal. f_equal; ring.
Qed.
(** The central forces between them. *)
Lemma ex_central c (pos : nat -> vec3 R) x0 x1 : pos 0%nat = V3 x0 1 1 -> pos 1%nat = V3 x1 1 1 -> 5 < x1 - x0 -> 0 < x0 - x1 + 10 < 1 ->
  central ex_y 1 c pos 0%nat = V3 (c 0%nat 1%nat (x0 - x1 + 10) (V3 1 0 0)) 0 0 /\
  central ex_y 1 c pos 1%nat = V3 (- c 1%nat 0%nat (x0 - x1 + 10) (V3 (-1) 0 0)) 0 0.
Proof.
  intros E0 E1 H1 H2. destruct (ex_dr x0 x1 H1 H2) as [D D'].
  assert (Hs : sqrt ((x0 - x1 + 10) * (x0 - x1 + 10)) = x0 - x1 + 10) by (apply sqrt_square; lra).
  assert (Hlt : (x0 - x1 + 10) * (x0 - x1 + 10) < 1 * 1) by nra.
  assert (U : vscale (/ (x0 - x1 + 10)) (V3 (x0 - x1 + 10) 0 0) = V3 1 0 0) by (unfold vscale; cbn [vx vy vz]; f_equal; field; lra).
  assert (U' : vscale (/ (x0 - x1 + 10)) (V3 (- (x0 - x1 + 10)) 0 0) = V3 (-1) 0 0) by (unfold vscale; cbn [vx vy vz]; f_equal; field; lra).
  unfold central. cbn [ex_y yAtoms yMask yDr].
  split; apply vget_eq; intros k; rewrite !vget_sum; unfold sum_over; cbn [map Rsum].
  - rewrite decide_True by done. rewrite decide_False by done. rewrite E0, E1, D. destruct (Rlt_dec _ _); [|lra]. cbv zeta. rewrite Hs, U.
    rewrite vget_zero, vget_scale. destruct k as [|[|k]]; cbn [vget vx vy vz]; ring.
  - rewrite decide_False by done. rewrite decide_True by done. rewrite E0, E1, D'. destruct (Rlt_dec _ _); [|lra]. cbv zeta. rewrite Hs, U'.
    rewrite vget_zero, vget_scale. destruct k as [|[|k]]; cbn [vget vx vy vz]; ring.
Qed.

(** Friction 1, temperature 1/20, all random numbers 1: the friction of the approaching atoms is 2, the random force 1. *)
Example dpd_example :
  exists p s s',
  md_ok ex_y 2 (1/2) 1 (V3 6 6 6)%Z /\ groups_ok ex_y /\ yExt ex_y = None /\ pl_state 61 2 2 1 (1/2) 1 p /\ nearby ex_y ex_pos /\
  dpd_setup ex_y 0 1 1 (1/20) (fun _ => 1) ex_pos ex_vel (fun _ => V3 7 7 7) p (Df (fun _ => V3 0 0 0) (fun _ => V3 0 0 0) 0) = Ok s /\
  dpd_run ex_y 0 1 1 (1/20) (fun _ => 1) 1 s = Ok s' /\
  (forall k t, (k < 1)%nat -> dpd_run ex_y 0 1 1 (1/20) (fun _ => 1) k s = Ok t -> nearby ex_y (dpd_half ex_y t)) /\
  dFD (dF s) 0%nat = V3 (-2) 0 0 /\ dFR (dF s) 0%nat = V3 1 0 0 /\ dpd_half ex_y s 0%nat = V3 (149/500) 1 1.
Proof.
  pose proof ex_ok as Ho.
  assert (Hg : groups_ok ex_y) by (intros k m g Hk; by apply elem_of_nil in Hk).
  assert (Hn0 : nearby ex_y ex_pos) by (intros a _; apply ex_near).
  destruct ex_begin as (p & m & Hst & Hm & Hb & P0 & P1 & Hcur). exists p.
  destruct (start_facts ex_y 2 2 1 (1/2) 1 _ ex_pos ex_vel _ p m Ho Hg Hst Hn0 Hm) as (_ & Hv & _ & HF).
  set (f0 := Df (fun _ => V3 0 0 0) (fun _ => V3 0 0 0) 0).
  assert (A0 : (0 ∈ yAtoms ex_y)%nat) by (cbn; left). assert (A1 : (1 ∈ yAtoms ex_y)%nat) by (cbn; right; left).
  assert (POS : forall (q : nat -> vec3 R) x0 x1, q 0%nat = V3 x0 1 1 -> q 1%nat = V3 x1 1 1 -> 5 < x1 - x0 -> 0 < x0 - x1 + 10 < 1 ->
    forall i j, i ∈ yAtoms ex_y -> j ∈ yAtoms ex_y -> i <> j -> 0 < (yDr ex_y (q i) (q j)).1).
  { intros q x0 x1 E0 E1 H1 H2 i j Hi Hj Hij. cbn [ex_y yAtoms yDr] in *. rewrite !elem_of_cons, elem_of_nil in Hi, Hj.
    destruct (ex_dr x0 x1 H1 H2) as [D D'].
    destruct Hi as [->|[->|[]]], Hj as [->|[->|[]]]; try done; rewrite E0, E1, ?D, ?D'; cbn [fst]; nra. }
  assert (Hcut : 0 <= 1 <= 1) by lra.
  destruct (dpd_forces_total ex_y 2 2 1 (1/2) 1 _ Ho 0 1 1 (1/20) (fun _ => 1) true (mX m) (mPos m) (mVel m) f0 Hb) as [f1 Hf1].
  { apply (Hcur _ _ _ P0 P1); rewrite Rminus_diag_eq, Rabs_R0; lra. }
  { apply (POS _ _ _ P0 P1); lra. }
  assert (Hs : dpd_setup ex_y 0 1 1 (1/20) (fun _ => 1) ex_pos ex_vel (fun _ => V3 7 7 7) p f0 = Ok (Dp m f1)).
  { unfold dpd_setup. rewrite Hm. cbn [obind]. by rewrite Hf1. }
  set (s := Dp m f1) in *. exists s.
  destruct (dpd_setup_good ex_y 2 2 1 (1/2) 1 _ Ho 0 1 1 (1/20) (fun _ => 1) Hcut ex_pos ex_vel _ p f0 s Hg Hst Hn0 Hs) as [Hgood _].
  pose proof Hgood as (_ & G2 & G3 & _ & (G & _ & _ & _ & G5)). cbn [dM dF s] in G2, G3, G5.
  assert (SG : dpd_sigma ex_y 1 (1/20) = 1).
  { unfold dpd_sigma. cbn [ex_y yDt]. replace (2 * 1 * (1/20) / (1/10)) with 1 by field. apply sqrt_1. }
  destruct (ex_force _ _ _ P0 P1) as [C0 C1]; [lra|lra|].
  assert (FD : dFD f1 0%nat = V3 (-2) 0 0 /\ dFD f1 1%nat = V3 2 0 0).
  { rewrite (G3 0%nat A0), (G3 1%nat A1). unfold friction.
    destruct (ex_central (fun i j r e => - (1 * (weight 0 1 r)² * vdot (vsub (mVel m i) (mVel m j)) e)) _ _ _ P0 P1) as [K0 K1]; [lra|lra|].
    rewrite K0, K1. rewrite !Hv. unfold ex_vel. rewrite (decide_True (P := (0 = 0)%nat)), (decide_False (P := (1 = 0)%nat)) by done.
    unfold weight, vdot, vsub, Rsqr. cbn [vx vy vz]. split; f_equal; ring. }
  assert (FR : dFR f1 0%nat = V3 1 0 0 /\ dFR f1 1%nat = V3 (-1) 0 0).
  { rewrite (G5 0%nat A0), (G5 1%nat A1). unfold random_force. rewrite SG.
    destruct (ex_central (fun i j r _ => 1 * weight 0 1 r * 1) _ _ _ P0 P1) as [K0 K1]; [lra|lra|].
    rewrite K0, K1. unfold weight. split; f_equal; ring. }
  assert (H0 : dpd_half ex_y s 0%nat = V3 (149/500) 1 1).
  { unfold dpd_half. cbn [dM dF s]. rewrite (proj1 FD), (proj1 FR), P0, Hv, (G2 0%nat A0), C0. unfold ex_vel. rewrite decide_True by done.
    cbn [ex_y yDt yMass yTy]. unfold vadd, vscale. cbn [vx vy vz]. f_equal; field. }
  assert (H1 : dpd_half ex_y s 1%nat = V3 (4751/500) 1 1).
  { unfold dpd_half. cbn [dM dF s]. rewrite (proj2 FD), (proj2 FR), P1, Hv, (G2 1%nat A1), C1. unfold ex_vel. rewrite decide_False by done.
    cbn [ex_y yDt yMass yTy]. unfold vadd, vscale. cbn [vx vy vz]. f_equal; field. }
  assert (Hnh : nearby ex_y (dpd_half ex_y s)).
  { intros a Ha. cbn [ex_y yAtoms] in Ha. rewrite !elem_of_cons, elem_of_nil in Ha. destruct Ha as [->|[->|[]]]; rewrite ?H0, ?H1; apply ex_near_x; lra. }
  destruct (dpd_step_total ex_y 2 2 1 (1/2) 1 _ Ho 0 1 1 (1/20) (fun _ => 1) s _ Hg Hgood Hnh) as [s' Hs'].
  { intros q Hq. pose proof (Hq 0%nat A0) as Q0. pose proof (Hq 1%nat A1) as Q1. rewrite H0 in Q0. rewrite H1 in Q1.
    exists (q, mX m). split; [|apply (POS _ _ _ Q0 Q1); lra]. unfold md_list, md_update. cbn [dM s].
    rewrite (Hcur q _ _ Q0 Q1); [done|apply Rabs_le; lra..]. }
  exists s'. split; [done|]. split; [done|]. split; [done|]. split; [done|]. split; [done|]. split; [done|].
  split; [cbn [dpd_run]; by rewrite Hs'|]. split; [|cbn [dF s]; tauto].
  intros k t Hk. destruct k; [|lia]. by intros [= <-].
Qed.

(** ** Langevin *)

(** One atom of mass 2 with no forces, friction 1 and time step 1: every run succeeds. *)
Definition ex_lang : mdsys :=
  MS 61 (ortho_bd ex_box) (distanceSq_dr ex_box) (fun _ _ => false) (fun _ _ _ => 0) (fun _ _ => 1) [] None
     [0]%nat (fun _ => 0%Z) (fun _ => 2) 1.
Definition ex_free (pos F : nat -> vec3 R) (x : unit) : outcome ((nat -> vec3 R) * (nat -> vec3 R) * unit) := Ok (pos, fun _ => V3 0 0 0, x).
Example langevin_example :
  exists fin, NoDup (yAtoms ex_lang) /\ yAtoms ex_lang <> [] /\ 0 < yDt ex_lang /\
  (forall pos F x r, ex_free pos F x = Ok r -> forall a, a ∈ yAtoms ex_lang -> r.1.2 a = V3 0 0 0) /\
  (forall n, runs ex_lang 1 3 ex_free n (Mds (fun _ => V3 1 1 1) (fun _ => V3 1 0 0) (fun _ => V3 0 0 0) tt) (fin n)).
Proof.
  set (s0 := Mds (X := unit) (fun _ : nat => V3 1 1 1) (fun _ => V3 1 0 0) (fun _ => V3 0 0 0) tt).
  exists (fun n l => match lang_run ex_lang 1 3 (numbers l) ex_free n (s0, 0%nat) with Ok (t, _) => t | _ => s0 end).
  split; [apply (bool_decide_eq_true_1 (NoDup _)); reflexivity|]. split; [done|]. split; [cbn; lra|].
  split; [intros pos F x r [= <-] a _; done|].
  intros n l _. assert (H : forall m u, exists r, lang_run ex_lang 1 3 (numbers l) ex_free m u = Ok r).
  { induction m as [|m IH]; intros u; cbn [lang_run]; [eauto|]. destruct u as [m0 k]. unfold lang_step at 1. destruct (integrate1 _ _ _) as [pos vel].
    cbn [ex_free obind]. destruct (fold_left _ _ _) as [[F2 v2] k2]. cbn [obind]. apply IH. }
  destruct (H n (s0, 0%nat)) as [[t k] E]. rewrite E. eauto.
Qed.

(** ** Archives *)
Example archive_example :
  nh_load (nh_save (NhA 1 2 (1/2) 3 4 5 6 [7; 8]) ++ [TI 9]) = Ok (NhA 1 2 (1/2) 3 4 5 6 [7; 8], [TI 9]) /\
  loadable 10 (BaseA 100 [1; 2]%nat 7 true) [] /\
  (exists x rest, base_load 10 [] (base_save (BaseA 100 [1; 2]%nat 7 true) ++ [TD 3]) = Ok (x, rest) /\ rest = [TD 3] /\ bStep x = 7%Z) /\
  lang_load 1 0 (lang_save (LangA 1 2 [1/2] [3] [4])) = UB /\
  dd_lang_load 10 [] 0 (dd_lang_save (DLangA 1 2 (BaseA 0 [] 7 true))) = UB.
Proof.
  split; [apply nh_trip|]. assert (L : loadable 10 (BaseA 100 [1; 2]%nat 7 true) []).
  { unfold loadable. cbn [bInt]. destruct (Z_lt_dec 0 100); [|lia]. split; [lia|]. by exists 10%Z. }
  split; [done|]. split; [|done].
  exists (BaseA 100 [1; 2]%nat 7 true), [TD 3]. split; [by apply base_trip|]. done.
Qed.

Print Assumptions nose_hoover_step.
Print Assumptions nose_hoover_reversible_general.
Print Assumptions nose_hoover_reversible.
Print Assumptions nose_hoover_momentum.
Print Assumptions dpd_momentum_conserved.
Print Assumptions dpd_step_correct.
Print Assumptions dpd_friction_dissipates.
Print Assumptions langevin_mean.
Print Assumptions langevin_temperature_limit.
Print Assumptions integrators_restart.
Print Assumptions langevin_restart_refuted.
