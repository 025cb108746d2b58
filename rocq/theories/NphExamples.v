(** Examples for properties C94 to C97. *)
From Coq Require Import Reals Lra.
From Coquelicot Require Import Coquelicot.
From stdpp Require Import gmap.
From Verif Require Import Base Vec3 BoxSpec OrthoModel OrthoSpec OrthoProofs OrthoProps MonoModel MonoSpec MonoProofs MonoProps.
From Verif Require Import McCellModel DomainModel DomainProofs SpeciesModel SpeciesProofs.
From Verif Require Import CellListModel CellListSpec CellListProofs CellListProps PairListModel PairListSpec PairListProofs PairListProps.
From Verif Require Import EnergyModel EnergySpec EnergyProofs MoveModel MoveSpec MoveProofs EnergyProps MoveProps MdModel MdSpec MdProofs MdForces MdProps.
From Verif Require Import ThermoModel ThermoSpec ThermoProofs NphModel NphSpec NphProofs BalanceSpec BalanceProps ThermoExamples NphProps FieldProofs.
From Coq Require Import Reals Lra.
Local Open Scope R_scope.
Local Open Scope R_scope.

(** ** NphIntegrator *)
(** One atom of mass 1 in a wave with the period of the box, in an orthorhombic box of length 10 without external pressure. *)
Definition ex_nph : mdsys :=
  MS 61 (ortho_bd ex_box) (distanceSq_dr ex_box) (fun _ _ => false) (fun _ _ _ => 0) (fun _ _ => 1) [] None
     [0]%nat (fun _ => 0%Z) (fun _ => 1) (1/10).
Definition ex_wave (l : vec3 R) (p : nat -> vec3 R) (a : nat) : vec3 R := V3 (cos (2 * PI * (vx (p a) / vx l))) 0 0.
Definition ex_relist (b : ortho) (p : nat -> vec3 R) (x : unit) : outcome ((nat -> vec3 R) * unit) := Ok (p, x).
Definition ex_calc (b : ortho) (p F : nat -> vec3 R) (x : unit) : outcome ((nat -> vec3 R) * (nat -> vec3 R) * unit) := Ok (p, ex_wave (oLen b) p, x).
Definition ex_virial (b : ortho) (p : nat -> vec3 R) (x : unit) : outcome (vec3 R * (nat -> vec3 R) * unit) := Ok (V3 0 0 0, p, x).
Definition ex_state : nphs unit := Np ex_box (V3 0 0 0) (V3 0 0 0) (Mds (fun _ => V3 0 1 1) (fun _ => V3 1 0 0) (fun _ => V3 1 0 0) tt).

Lemma ex_lawful : lawful ex_nph ex_wave (fun _ _ => V3 0 0 0) (fun _ => True) (fun l _ => positive3 l) ex_relist ex_calc ex_virial.
Proof.
  split.
  - apply (bool_decide_eq_true_1 (NoDup _)). reflexivity.
  - intros b l p x p' x' _ _ [= <- <-]. split; [done|apply same_refl].
  - intros b l p F x p' F' x' [_ El] _ [= <- <- <-]. split; [done|]. split; [apply same_refl|]. rewrite El. done.
  - intros b l p x v p' x' _ _ [= <- <- <-]. split; [done|]. split; [apply same_refl|done].
  - done.
  - intros l p q a (Hl & _) Hs Ha. destruct (Hs a Ha) as [m Em]. unfold ex_wave. f_equal. rewrite Em. destruct l as [l0 l1 l2]. cbn [vx] in Hl.
    change (vx (V3 l0 l1 l2)) with l0. rewrite <- (cos_int (2 * PI * (vx (p a) / l0)) (vx m)). f_equal.
    change (vx (vadd (p a) (lattice_vector (edge_vectors (V3 l0 l1 l2)) m))) with (vget (vadd (p a) (lattice_vector (edge_vectors (V3 l0 l1 l2)) m)) 0).
    rewrite vget_add, edge_lattice by lia. cbn [vget vx]. field. lra.
  - done.
Qed.

(** A step changes the length along x, and a step with everything reversed returns to the beginning. *)
Example nph_example :
  exists s' t,
  lawful ex_nph ex_wave (fun _ _ => V3 0 0 0) (fun _ => True) (fun l _ => positive3 l) ex_relist ex_calc ex_virial /\
  nph_ready ex_nph ex_wave (fun _ => True) (fun l _ => positive3 l) Orthorhombic ex_state /\
  nph_run ex_nph Orthorhombic 1 0 ex_relist ex_calc ex_virial 1 ex_state = Ok s' /\
  nph_run ex_nph Orthorhombic 1 0 ex_relist ex_calc ex_virial 1 (nph_reversed s') = Ok t /\
  nph_within (fun l _ => positive3 l) s' /\ nph_within (fun l _ => positive3 l) t /\
  oLen (hB s') = V3 (10 + 1/2000) 10 10 /\ nph_opposite ex_nph ex_state t.
Proof.
  destruct ex_wf as [lat W]. pose proof (w_len _ _ _ W) as EL. pose proof ex_a_box as Hb.
  assert (B0 : box_of ex_box (V3 10 10 10)) by done.
  destruct (box_of_facts _ _ B0) as [P0 EV].
  assert (Hr : nph_ready ex_nph ex_wave (fun _ => True) (fun l _ => positive3 l) Orthorhombic ex_state).
  { split; cbn [ex_state hB hS mX mFrc mPos]; rewrite ?EL; try done. intros a _. unfold ex_wave. cbn [vx]. f_equal. unfold Rdiv. rewrite Rmult_0_l, Rmult_0_r, cos_0. done. }
  assert (EF : nph_lengths ex_nph Orthorhombic 1 (V3 10 10 10) (V3 (1/200) 0 0) = Ok (V3 (10 + 1/4000) 10 10, V3 (10 + 1/2000) 10 10)).
  { unfold nph_lengths. cbn [ex_nph yDt vx vy vz]. f_equal. f_equal; f_equal; field. }
  set (f := V3 (10 + 1/2000) 10 10) in *. set (b' := setOrthorhombic ex_box f).
  assert (Pf : positive3 f) by (unfold positive3, f; cbn [vx vy vz]; lra).
  assert (B1 : box_of b' f) by (by apply (box_of_set _ (V3 10 10 10))).
  assert (S1 : exists pos vel F P, nph_step ex_nph Orthorhombic 1 0 ex_relist ex_calc ex_virial ex_state =
    Ok (Np b' (nph_eta ex_nph Orthorhombic 0 (vx f * vy f * vz f) f (V3 (1/200) 0 0) P) P (Mds pos vel F tt)) /\ P = vadd (V3 0 0 0) (kinetic_stress ex_nph b' vel)).
  { unfold nph_step, nph_stress, ex_virial, ex_calc, ex_relist. cbn [ex_state hB hS hEta mPos mVel mX mFrc obind]. rewrite EL.
    assert (EE : nph_eta ex_nph Orthorhombic 0 (vx (V3 10 10 10) * vy (V3 10 10 10) * vz (V3 10 10 10)) (V3 10 10 10) (V3 0 0 0)
      (vadd (V3 0 0 0) (kinetic_stress ex_nph ex_box (fun _ => V3 1 0 0))) = V3 (1/200) 0 0).
    { unfold nph_eta, kinetic_stress. rewrite EV. unfold box_volume. cbn [ex_nph yDt yAtoms yMass yTy fold_left vadd vx vy vz vget]. unfold vadd. cbn [vx vy vz]. f_equal; field. }
    rewrite EE, EF. cbn [obind]. destruct (nph_integrate1 _ _ _ _ _) as [pos vel]. cbn [obind]. do 4 eexists. split; [reflexivity|]. done. }
  destruct S1 as (pos & vel & F & P & S1 & EP). eexists. 
  assert (S2 : exists eta P' m, nph_step ex_nph Orthorhombic 1 0 ex_relist ex_calc ex_virial
    (nph_reversed (Np b' (nph_eta ex_nph Orthorhombic 0 (vx f * vy f * vz f) f (V3 (1/200) 0 0) P) P (Mds pos vel F tt))) = Ok (Np (setOrthorhombic b' (V3 10 10 10)) eta P' m)).
  { unfold nph_step, nph_stress, ex_virial, ex_calc, ex_relist. cbn [nph_reversed reversed hB hS hEta mPos mVel mX mFrc obind]. rewrite (proj2 B1).
    assert (EK : vadd (V3 0 0 0) (kinetic_stress ex_nph b' (fun a => vscale (-1) (vel a))) = P).
    { rewrite EP. f_equal. unfold kinetic_stress. cbn [ex_nph yAtoms yMass yTy fold_left]. rewrite !vget_scale. f_equal; f_equal; ring. }
    rewrite EK, nph_eta_back, (nph_lengths_back ex_nph Orthorhombic 1 (V3 10 10 10) (V3 (1/200) 0 0) (V3 (10 + 1/4000) 10 10) f P0 I EF). cbn [obind].
    destruct (nph_integrate1 _ _ _ _ _) as [pos' vel']. cbn [obind]. do 3 eexists. reflexivity. }
  destruct S2 as (eta & P' & m & S2). eexists.
  assert (R1 := S1). apply (f_equal (fun o => obind o (fun s => Ok s))) in R1. assert (R2 := S2). apply (f_equal (fun o => obind o (fun s => Ok s))) in R2.
  assert (W1 : nph_within (fun l _ => positive3 l) (Np b' (nph_eta ex_nph Orthorhombic 0 (vx f * vy f * vz f) f (V3 (1/200) 0 0) P) P (Mds pos vel F tt))).
  { unfold nph_within. cbn [hB]. rewrite (proj2 B1). done. }
  assert (W2 : nph_within (fun l _ => positive3 l) (Np (setOrthorhombic b' (V3 10 10 10)) eta P' m)).
  { unfold nph_within. cbn [hB]. rewrite (set_len b' f _ B1). done. }
  split; [apply ex_lawful|]. split; [done|]. split; [exact R1|]. split; [exact R2|]. split; [done|]. split; [done|]. split; [by apply B1|].
  eapply (nph_reversible unit ex_nph Orthorhombic 1 0 ex_wave (fun _ _ => V3 0 0 0) (fun _ => True) (fun l _ => positive3 l) ex_relist ex_calc ex_virial 1 ex_state);
    [apply ex_lawful|done|exact R1| |exact R2|].
  - intros k u Hk Hu. destruct k as [|[|k]]; [| |lia].
    + injection Hu as <-. unfold nph_within. cbn [ex_state hB]. rewrite EL. done.
    + cbn [nph_run] in Hu. rewrite S1 in Hu. by injection Hu as <-.
  - intros k u Hk Hu. destruct k as [|[|k]]; [| |lia].
    + injection Hu as <-. done.
    + cbn [nph_run] in Hu. rewrite S2 in Hu. by injection Hu as <-.
Qed.

(** ** Momenta *)
Example draw_example :
  boltzmann_distributed 6 2 (fun g => kinetic ex_y (boltzmann_velocities ex_y 2 g ex_vel).1) /\
  boltzmann_distributed 3 2 (fun g => barostat_energy Orthorhombic 1 (draw_eta Orthorhombic 1 2 g (V3 0 0 0))) /\
  ~ boltzmann_distributed 3 2 (fun g => barostat_energy Orthorhombic 5 (draw_eta Orthorhombic 5 2 g (V3 0 0 0))).
Proof.
  split; [|split].
  - apply (velocities_boltzmann ex_y 2 ex_vel); [apply (bool_decide_eq_true_1 (NoDup _)); reflexivity|lra|intros a _; cbn; lra].
  - apply (barostat_boltzmann_refuted Orthorhombic 1 2 (V3 0 0 0)); [lra|lra|tauto|done].
  - intros H. apply (barostat_boltzmann_refuted Orthorhombic 5 2 (V3 0 0 0)) in H; [destruct H; lra|lra|lra|tauto].
Qed.

(** ** Hybrid moves *)
(** The two atoms of [nve_example] in the box, thrown together through the face with random numbers 1, 0, 0, -1, 0, 0: whatever
    number decides about acceptance, the move comes to an end. *)
Definition ex_two (a : nat) : vec3 R := match a with 0%nat => V3 (1/5) 1 1 | _ => V3 (48/5) 1 1 end.
Definition ex_g (k : nat) : R := match k with 0%nat => 1 | 3%nat => -1 | _ => 0 end.
Definition ex_energy (r : R) (t1 t2 : Z) : R := if Rlt_dec r 1 then (1 - r) / 2 else 0.
Example hybrid_example :
  exists p s,
  md_ok ex_y 2 (1/2) 1 (V3 6 6 6)%Z /\ groups_ok ex_y /\ interaction_ok 1 ex_energy /\ pl_state 61 2 2 1 (1/2) 1 p /\ nearby ex_y (sPos s) /\
  grid_of (bLens (yB ex_y)) 1 (V3 10 10 10)%Z /\ synced 61 2 (bGen (yB ex_y)) (bLens (yB ex_y)) 1 (V3 10 10 10)%Z (yAtoms ex_y) s /\
  (forall m0 k m, md_start ex_y (sPos s) (boltzmann_velocities ex_y 1 ex_g ex_vel).1 (fun _ => V3 7 7 7) p = Ok m0 -> (k < 1)%nat -> nve_run ex_y k m0 = Ok m ->
     nearby ex_y (half_step ex_y m)) /\
  forall beta r, exists dE s' p' acc, hybrid_move ex_y ex_energy None beta 1 1 ex_g r 1 ex_vel (fun _ => V3 7 7 7) s p = Ok (dE, s', p', acc).
Proof.
  destruct ex_wf as [lat W]. pose proof ex_ok as Ho.
  assert (Hg : groups_ok ex_y) by (intros k m g Hk; by apply elem_of_nil in Hk).
  assert (Hi : interaction_ok 1 ex_energy).
  { split; [lra|]. split; intros; unfold ex_energy; [destruct (Rlt_dec _ _); lra|done]. }
  assert (HS : forall x, 0 <= x < 10 -> shift1 ex_box (V3 x 1 1) = V3 x 1 1).
  { intros x Hx. unfold shift1. rewrite (w_min _ _ _ W), (w_max _ _ _ W), (w_len _ _ _ W). unfold shift1_axis.
    cbn [vget vx vy vz OrthoModel.vzero]. repeat (destruct (Rge_dec _ _); [lra|]). repeat (destruct (Rlt_dec _ _); [lra|]). done. }
  assert (Hnear : forall a, near_cell_of (oBrav ex_box) (ex_two a)) by (intros [|a]; apply ex_near_x; lra).
  set (vel := (boltzmann_velocities ex_y 1 ex_g ex_vel).1).
  destruct (ex_begin_at ex_two vel Hnear) as (p & m0 & Hst & Hs & Hb & X0 & X1 & Hcur); [cbn [ex_two]; apply HS; lra..|].
  exists p.
  assert (HG : grid_of (bLens (yB ex_y)) 1 (V3 10 10 10)%Z) by apply ex_grid10.
  destruct (mc_energy_correct 61 2 (yB ex_y) (yMask ex_y) ex_energy 1 [] None (V3 10 10 10)%Z (yAtoms ex_y) (MC ex_two (yTy ex_y) (cl_new 2))) as (s0 & _ & Hsy & HP & _);
    [lia|by apply (y_boundary ex_y 2 (1/2) 1 _ Ho)|done|done|by apply (mo_nodup _ _ _ _ _ Ho)|done| |apply few_not_crowded; cbn; lia|].
  { intros a Ha. split; [by apply (mo_cap _ _ _ _ _ Ho)|]. apply Hnear. }
  set (s := MC ex_two (yTy ex_y) (sCells s0)). exists s.
  assert (Hsy' : synced 61 2 (bGen (yB ex_y)) (bLens (yB ex_y)) 1 (V3 10 10 10)%Z (yAtoms ex_y) s).
  { destruct Hsy as (l0 & l1 & ops & L0 & L1 & L2 & L3 & L4). exists l0, l1, ops. cbn [s sCells sPos]. split; [done|]. split; [done|]. split; [done|]. split; [done|].
    intros a. rewrite L4. case_decide as Ha; [|done]. f_equal. rewrite HP, decide_True by done. cbn [sPos ex_y yB ortho_bd bWrap].
    destruct a as [|a]; cbn [ex_two]; apply HS; lra. }
  assert (Hn : nearby ex_y (sPos s)) by (intros a _; apply Hnear).
  destruct (start_rest ex_y 2 2 1 (1/2) 1 _ Ho Hg _ _ _ _ _ Hst Hn Hs) as (R0 & I0 & V0).
  destruct (velocities_spec ex_y 1 ex_g ex_vel (mo_nodup _ _ _ _ _ Ho)) as [Vs _]. fold vel in Vs.
  assert (Q1 : sqrt (1 / 1) = 1) by (replace (1 / 1) with 1 by field; apply sqrt_1).
  assert (U0 : mVel m0 0%nat = V3 1 0 0).
  { rewrite V0, (Vs 0%nat 0%nat eq_refl). cbn [ex_y yMass yTy]. rewrite Q1. unfold vscale, ex_g. cbn. f_equal; ring. }
  assert (U1 : mVel m0 1%nat = V3 (-1) 0 0).
  { rewrite V0, (Vs 1%nat 1%nat eq_refl). cbn [ex_y yMass yTy]. rewrite Q1. unfold vscale, ex_g. cbn. f_equal; ring. }
  destruct (ex_force (mPos m0) _ _ X0 X1 ltac:(lra) ltac:(lra)) as [T0 T1].
  assert (H0 : half_step ex_y m0 0%nat = V3 (303/1000) 1 1).
  { unfold half_step. rewrite (ar_force _ _ _ _ _ _ _ R0 0%nat), T0, X0, U0 by (cbn; rewrite elem_of_cons; tauto). unfold vadd, vscale. cbn [ex_y yDt yMass yTy vx vy vz]. f_equal; field. }
  assert (H1 : half_step ex_y m0 1%nat = V3 (9497/1000) 1 1).
  { unfold half_step. rewrite (ar_force _ _ _ _ _ _ _ R0 1%nat), T1, X1, U1 by (cbn; rewrite !elem_of_cons; tauto). unfold vadd, vscale. cbn [ex_y yDt yMass yTy vx vy vz]. f_equal; field. }
  assert (Hh : nearby ex_y (half_step ex_y m0)).
  { intros a Ha. cbn [ex_y yAtoms] in Ha. rewrite !elem_of_cons, elem_of_nil in Ha. destruct Ha as [->|[->|[]]]; rewrite ?H0, ?H1; apply ex_near_x; lra. }
  assert (Hk : forall m0' k m, md_start ex_y (sPos s) vel (fun _ => V3 7 7 7) p = Ok m0' -> (k < 1)%nat -> nve_run ex_y k m0' = Ok m -> nearby ex_y (half_step ex_y m)).
  { intros m0' k m E Hlt Hm. cbn [s sPos] in E. rewrite Hs in E. injection E as <-. destruct k as [|k]; [|lia]. by injection Hm as <-. }
  split; [done|]. split; [done|]. split; [done|]. split; [done|]. split; [done|]. split; [done|]. split; [done|]. split; [done|]. intros beta r.
  destruct (step_current ex_y 2 2 1 (1/2) 1 _ m0 Ho Hg Hb Hh) as (m1 & E1 & _).
  { intros q Hq. apply (Hcur q (303/1000) (9497/1000)).
    - rewrite Hq; [done|cbn; rewrite elem_of_cons; tauto].
    - rewrite Hq; [done|cbn; rewrite !elem_of_cons; tauto].
    - apply Rabs_le. lra.
    - apply Rabs_le. lra. }
  assert (N1 : nve_run ex_y 1 m0 = Ok m1) by (unfold nve_run; cbn [vv_run]; rewrite E1; done).
  assert (R1 : at_rest ex_y 2 2 1 (1/2) 1 m1).
  { apply (run_rest ex_y 2 2 1 (1/2) 1 _ Ho Hg 1 m0 m1 R0 N1). intros k t Hlt Ht. by apply (Hk m0 k t). }
  unfold hybrid_move. fold vel. cbn [s sPos]. rewrite Hs. cbn [obind]. rewrite (potential_rest ex_y ex_energy None 2 2 1 (1/2) 1 _ Ho Hi m0 R0). cbn [obind].
  rewrite N1. cbn [obind]. rewrite (potential_rest ex_y ex_energy None 2 2 1 (1/2) 1 _ Ho Hi m1 R1). cbn [obind].
  destruct (metropolis _ r); [|eauto].
  destruct (mc_energy_correct 61 2 (yB ex_y) (yMask ex_y) ex_energy 1 [] None (V3 10 10 10)%Z (yAtoms ex_y) (MC (mPos m1) (sTy s) (sCells s))) as (s1 & E & _);
    [lia|by apply (y_boundary ex_y 2 (1/2) 1 _ Ho)|done|done|by apply (mo_nodup _ _ _ _ _ Ho)| | |apply few_not_crowded; cbn; lia|].
  - destruct (boundary_facts _ (y_boundary ex_y 2 (1/2) 1 _ Ho)) as [F1 _ _ _ _ _].
    destruct (holding_clinv 61 2 ltac:(lia) (bGen (yB ex_y)) (bLens (yB ex_y)) 1 _ (yAtoms ex_y) F1 ltac:(lra) HG _ _ Hsy') as (h & I & _). by apply (ci_cap _ _ _ _ _ _ I).
  - intros a Ha. split; [by apply (mo_cap _ _ _ _ _ Ho)|by apply (ar_near _ _ _ _ _ _ _ R1)].
  - cbn [s sTy sCells] in E |- *. change (yM ex_y) with 61%nat. rewrite E. cbn [obind]. eauto.
Qed.

(** The same move as an MdMove has no defined result. *)
Example md_move_example :
  exists p, pl_state 61 2 2 1 (1/2) 1 p /\ md_move ex_y (simulate_begin (nve_read 1)) 1 ex_g 1 ex_pos ex_vel (fun _ => V3 7 7 7) p = UB.
Proof.
  destruct (ex_begin_at ex_pos (boltzmann_velocities ex_y 1 ex_g ex_vel).1 ex_near) as (p & m & Hst & Hs & _); [by rewrite ex_wrap..|].
  exists p. split; [done|]. eapply md_move_unset_refuted; [done|exact Hs].
Qed.

Print Assumptions nph_step_equations.
Print Assumptions nph_reversible.
Print Assumptions velocities_boltzmann.
Print Assumptions barostat_boltzmann_refuted.
Print Assumptions hybrid_move_correct.
Print Assumptions md_move_unset_refuted.
Print Assumptions hybrid_move_set.
Print Assumptions nph_reject_restores.
