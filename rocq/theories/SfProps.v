(** Structure factors (C102). *)
From Coq Require Import Reals Lra.
From Coquelicot Require Import Coquelicot.
From stdpp Require Import relations gmap.
From Verif Require Import Base Vec3 BoxSpec OrthoModel OrthoSpec OrthoProofs OrthoProps MonoModel MonoSpec PairListProps EnergyModel EnergySpec EnergyProofs MdModel MdSpec EwaldModel EwaldSpec EwaldProofs EwaldKept SfModel SfSpec SfProofs.
From Coq Require Import Reals Lra.
Local Open Scope R_scope.

Lemma sf_value_eq modes kb atoms ty pos n j : ewald_box kb ->
  sf_value modes kb atoms ty pos n j = structure_factor kb (fun a => modes j (ty a)) pos atoms n.
Proof.
  intros HB. unfold sf_value, cnorm, structure_factor. rewrite mode_eq, makeWave_eq. cbn [fst snd]. rewrite mode_product. unfold Rdiv. ring.
Qed.
(** C102.  What StructureFactor reports is the mean over the samples since setup of the structure factors, sums over all pairs of atoms, at the
    wavevectors of the box at the time. *)
Theorem structure_factor_correct :
  forall waves nMode modes s cs i j n, cs <> [] -> (forall c, c ∈ cs -> ewald_box (cfBox c)) -> waves !! i = Some n -> (j < nMode)%nat ->
  sf_output (fold_left (fun s c => sf_sample waves nMode modes s (cfBox c) (cfAtoms c) (cfTy c) (cfPos c)) cs (sf_setup s)) i j =
  / INR (length cs) * sum_over cs (fun c => structure_factor (cfBox c) (fun a => modes j (cfTy c a)) (cfPos c) (cfAtoms c) n).
Proof.
  intros waves nMode modes s cs i j n Hne HB Hi Hj. set (step := fun s c => _).
  assert (G : forall cs s, (forall c, c ∈ cs -> ewald_box (cfBox c)) ->
    sfS (fold_left step cs s) i j = sfS s i j + sum_over cs (fun c => structure_factor (cfBox c) (fun a => modes j (cfTy c a)) (cfPos c) (cfAtoms c) n) /\
    sfN (fold_left step cs s) = (sfN s + length cs)%nat).
  { clear - Hi Hj step. intros cs; induction cs as [|c cs IH]; intros s HB; cbn [fold_left length]; [rewrite sum_nil; split; [lra|lia]|].
    destruct (IH (step s c)) as [-> ->]; [intros; apply HB; by right|]. unfold step, sf_sample. cbn [sfS sfN]. rewrite Hi. apply Nat.ltb_lt in Hj. rewrite Hj.
    rewrite sum_cons, sf_value_eq by (apply HB; left). split; [lra|lia]. }
  unfold sf_output. destruct (G cs (sf_setup s) HB) as [-> ->]. cbn [sf_setup sfS sfN]. rewrite Rplus_0_l, Nat.add_0_l. unfold Rdiv. ring.
Qed.
(** Structure factors are not negative, the same at opposite wavevectors, and do not change when the atoms are stored at other images or translated
    together. *)
Theorem structure_factor_invariant :
  forall kb c pos atoms n, ewald_box kb ->
  0 <= structure_factor kb c pos atoms n /\ structure_factor kb c pos atoms (vneg n) = structure_factor kb c pos atoms n /\
  (forall pos', same_images (kBrav kb) atoms pos pos' -> structure_factor kb c pos' atoms n = structure_factor kb c pos atoms n) /\
  (forall d, structure_factor kb c (fun a => vadd (pos a) d) atoms n = structure_factor kb c pos atoms n).
Proof.
  intros kb c pos atoms n HB. pose proof (db_pos _ (ewald_dual kb HB)) as HV. split; [|split; [|split]].
  - unfold structure_factor. rewrite <- mode_product. apply Rmult_le_pos; [apply Rlt_le, Rinv_0_lt_compat; done|]. nra.
  - unfold structure_factor. f_equal. apply sum_ext. intros a _. apply sum_ext. intros b _. f_equal. rewrite wavevector_neg.
    rewrite <- cos_neg. f_equal. unfold vdot, vscale. cbn [vx vy vz]. ring.
  - intros pos' HI. unfold structure_factor. f_equal. apply sum_ext. intros a Ha. apply sum_ext. intros b Hb. f_equal.
    destruct (HI a Ha) as (m & ->), (HI b Hb) as (k & ->). destruct (wave_lattice kb n m HB) as (z & Ez), (wave_lattice kb n k HB) as (z' & Ez').
    rewrite <- (cos_turns (vdot (wavevector kb n) (vsub (pos a) (pos b))) (z - z')). f_equal. rewrite minus_IZR.
    assert (forall q u v w x, vdot q (vsub (vadd u w) (vadd v x)) = vdot q (vsub u v) + (vdot q w - vdot q x)) as -> by (intros; unfold vdot, vsub, vadd; cbn [vx vy vz]; ring).
    rewrite Ez, Ez'. ring.
  - intros d. unfold structure_factor. f_equal. apply sum_ext. intros a _. apply sum_ext. intros b _. do 2 f_equal. unfold vdot, vsub, vadd. cbn [vx vy vz]. ring.
Qed.
(** C102.  Each line of the file of maxima names a wave with the largest value, and its value. *)
Theorem maximum_correct :
  forall waves kb v, waves <> [] -> (forall n, n ∈ waves -> 0 <= v n) ->
  exists n, n ∈ waves /\ sf_max waves kb v = (Some n, sqrt (normSq (wavevector kb n)), v n) /\ forall n', n' ∈ waves -> v n' <= v n.
Proof.
  intros waves kb v Hne H0. unfold sf_max. set (f := fun m n => _).
  assert (G : forall l n0 done, (forall n, n ∈ done -> v n <= v n0) -> n0 ∈ done ->
    exists n, n ∈ done ++ l /\ fold_left f l (Some n0, sqrt (normSq (wavevector kb n0)), v n0) = (Some n, sqrt (normSq (wavevector kb n)), v n) /\ forall n', n' ∈ done ++ l -> v n' <= v n).
  { clear. induction l as [|x l IH]; intros n0 dn HM Hin; cbn [fold_left].
    - rewrite app_nil_r. exists n0. done.
    - unfold f at 2. cbn [snd]. destruct (Rle_dec (v n0) (v x)) as [Hl|Hl]; rewrite ?makeWave_eq.
      + destruct (IH x (dn ++ [x])) as (n & H1 & H2 & H3).
        * intros n [Hn| ->%elem_of_list_singleton]%elem_of_app; [|lra]. specialize (HM n Hn). lra.
        * apply elem_of_app. right. left.
        * rewrite <- app_assoc in H1, H3. exists n. done.
      + destruct (IH n0 (dn ++ [x])) as (n & H1 & H2 & H3).
        * intros n [Hn| ->%elem_of_list_singleton]%elem_of_app; [|lra]. by apply HM.
        * apply elem_of_app. by left.
        * rewrite <- app_assoc in H1, H3. exists n. done. }
  destruct waves as [|x l]; [done|]. cbn [fold_left]. unfold f at 2. cbn [snd]. destruct (Rle_dec 0 (v x)) as [|Hl]; [|exfalso; apply Hl, H0; left].
  rewrite makeWave_eq. destruct (G l x [x]) as (n & H1 & H2 & H3).
  - intros n ->%elem_of_list_singleton. lra.
  - left.
  - exists n. done.
Qed.
(** C102.  A restart keeps the averages: all later outputs are those of a run that was not interrupted. *)
Theorem restart_averages :
  forall waves nMode modes s cs i j,
  let run s := fold_left (fun s c => sf_sample waves nMode modes s (cfBox c) (cfAtoms c) (cfTy c) (cfPos c)) cs s in
  sf_output (run (sf_restart s)) i j = sf_output (run s) i j.
Proof.
  intros waves nMode modes s cs i j run. assert (G : forall cs s t, sfS s = sfS t -> sfN s = sfN t ->
    let run s := fold_left (fun s c => sf_sample waves nMode modes s (cfBox c) (cfAtoms c) (cfTy c) (cfPos c)) cs s in sfS (run s) = sfS (run t) /\ sfN (run s) = sfN (run t)).
  { clear. induction cs as [|c cs IH]; intros s t H1 H2; cbn [fold_left]; [done|]. apply IH; unfold sf_sample; cbn [sfS sfN]; by rewrite ?H1, ?H2. }
  unfold sf_output, run. destruct (G cs (sf_restart s) s eq_refl eq_refl) as [-> ->]. done.
Qed.
(** But the first sample after it opens the file of maxima anew: everything written before the restart is lost. *)
Theorem restart_maxima_refuted :
  forall waves nMode modes s c cs,
  let step s c := sf_sample waves nMode modes s (cfBox c) (cfAtoms c) (cfTy c) (cfPos c) in
  sfFirst s = false ->
  sfFile (fold_left step (c :: cs) s) = sfFile s ++ sfFile (fold_left step (c :: cs) (sf_restart s)) /\
  length (sfFile (fold_left step (c :: cs) (sf_restart s))) = S (length cs).
Proof.
  intros waves nMode modes s c cs step Hf.
  assert (G : forall cs s, sfFirst s = false -> exists l, length l = length cs /\ forall t, sfFirst t = false -> sfFile (fold_left step cs t) = sfFile t ++ l).
  { clear. intros cs _ _. induction cs as [|c cs (l & Hl & IH)]; [exists []; split; [done|]; intros; by rewrite app_nil_r|].
    exists (map (fun j => sf_max waves (cfBox c) (fun n => sf_value modes (cfBox c) (cfAtoms c) (cfTy c) (cfPos c) n j)) (seq 0 nMode) :: l). split; [cbn; by rewrite Hl|].
    intros t Ht. cbn [fold_left]. rewrite IH by done. unfold step at 1, sf_sample. cbn [sfFile]. rewrite Ht, <- app_assoc. done. }
  destruct (G cs s Hf) as (l & Hl & E). cbn [fold_left]. rewrite !E by done. unfold step, sf_sample, sf_restart. cbn [sfFile sfFirst]. rewrite Hf. split.
  - by rewrite <- app_assoc.
  - rewrite app_length. cbn. by rewrite Hl.
Qed.

(** C102.  IntraStructureFactor adds the sum over pairs within the molecules of the species, of the two types; a negative type stands for all. *)
Theorem intra_structure_correct :
  forall kb pos ty n t0 t1 mols, ewald_box kb ->
  intra_value kb pos ty n t0 t1 mols =
  intra_factor kb pos (fun a => (Z.ltb t0 0 || Z.eqb (ty a) t0)%bool) (fun a => (Z.ltb t1 0 || Z.eqb (ty a) t1)%bool) mols n.
Proof.
  intros kb pos ty n t0 t1 mols HB. unfold intra_value, intra_factor.
  set (g := fun mol => sum_over (List.filter (fun a => (Z.ltb t0 0 || Z.eqb (ty a) t0)%bool) mol) (fun a => sum_over (List.filter (fun a => (Z.ltb t1 0 || Z.eqb (ty a) t1)%bool) mol) (fun b => cos (vdot (wavevector kb n) (vsub (pos a) (pos b)))))).
  rewrite (fold_sum_ext _ (fun mol => / kVol kb * g mol)).
  - rewrite Rplus_0_l. induction mols as [|m mols IH]; [rewrite !sum_nil; lra|]. rewrite !sum_cons, IH. lra.
  - intros e mol _. cbv zeta. f_equal. unfold intra_mode. rewrite !mode_eq, makeWave_eq. cbn [fst snd].
    replace (_ - _) with (g mol); [unfold Rdiv; ring|]. unfold g. set (A := List.filter _ mol). set (B := List.filter _ mol).
    pose proof (mode_product (fun _ => 1) (fun _ => 1) pos (wavevector kb n) A B) as H.
    transitivity (sum_over A (fun a => sum_over B (fun b => 1 * 1 * cos (vdot (wavevector kb n) (vsub (pos a) (pos b)))))).
    + apply sum_ext. intros a _. apply sum_ext. intros b _. ring.
    + rewrite <- H. ring.
Qed.
(** C102.  The squared modulus of the modes that VanHove correlates is the structure factor; the modes do not depend on the images of the atoms. *)
Theorem vanhove_correct :
  forall kb c pos n atoms, ewald_box kb ->
  cnorm (vanhove_value kb c pos n atoms) = structure_factor kb c pos atoms n /\
  forall pos', same_images (kBrav kb) atoms pos pos' -> vanhove_value kb c pos' n atoms = vanhove_value kb c pos n atoms.
Proof.
  intros kb c pos n atoms HB. pose proof (db_pos _ (ewald_dual kb HB)) as HV. split.
  - unfold vanhove_value, cnorm, structure_factor. rewrite mode_eq, makeWave_eq. cbn [fst snd]. rewrite <- mode_product.
    assert (sqrt (kVol kb) * sqrt (kVol kb) = kVol kb) as HS by (apply sqrt_sqrt; lra). assert (0 < sqrt (kVol kb)) by (by apply sqrt_lt_R0).
    rewrite <- HS at 5. field. lra.
  - intros pos' HI. unfold vanhove_value. rewrite !mode_eq, makeWave_eq. cbn [fst snd].
    assert (E : forall a, a ∈ atoms -> cos (vdot (pos' a) (wavevector kb n)) = cos (vdot (pos a) (wavevector kb n)) /\ sin (vdot (pos' a) (wavevector kb n)) = sin (vdot (pos a) (wavevector kb n))).
    { intros a Ha. destruct (HI a Ha) as (m & ->). destruct (wave_lattice kb n m HB) as (z & Ez).
      assert (vdot (vadd (pos a) (lattice_vector (kBrav kb) m)) (wavevector kb n) = vdot (pos a) (wavevector kb n) + 2 * PI * IZR z) as ->.
      { rewrite <- Ez. unfold vdot, vadd. cbn [vx vy vz]. ring. }
      split; [apply cos_turns|]. rewrite <- !(cos_shift (_ + _)), <- (cos_shift (vdot (pos a) (wavevector kb n))).
      rewrite <- (cos_turns (PI / 2 - vdot (pos a) (wavevector kb n)) (- z)). f_equal. rewrite opp_IZR. ring. }
    f_equal; f_equal; apply sum_ext; intros a Ha; destruct (E a Ha) as [E1 E2]; rewrite ?E1, ?E2; done.
Qed.

(** * Examples: two atoms half a box apart *)
Definition half_pos : nat -> vec3 R := fun a => V3 (if Nat.eqb a 0 then 0 else 1 / 2) 0 0.
Definition half_conf : conf := Conf (cube_kb 1) [0; 1]%nat (fun _ => 0%nat) half_pos.
Definition half_waves : list (vec3 Z) := [V3 1 0 0; V3 2 0 0]%Z.
Lemma half_box : ewald_box (cube_kb 1).
Proof. left. eexists. split; [apply (cube_a_box 1); lra|done]. Qed.
Lemma half_value (k : Z) : kVol (cube_kb 1) * structure_factor (cube_kb 1) (fun _ => 1) half_pos [0; 1]%nat (V3 k 0 0)%Z = 2 + 2 * cos (PI * IZR k).
Proof.
  pose proof (db_pos _ (cube_dual 1 ltac:(lra))) as HV. unfold structure_factor. rewrite <- Rmult_assoc, Rinv_r, Rmult_1_l by lra.
  rewrite !sum_cons, !sum_nil, !cube_wave by lra. unfold half_pos, vmap, vsub, vscale, vdot. cbn [Nat.eqb vx vy vz].
  assert (forall x, x = 0 -> cos x = 1) as H0 by (intros x ->; apply cos_0).
  rewrite (H0 (_ * (0 - 0) + _ + _)) by ring. rewrite (H0 (_ * (1 / 2 - 1 / 2) + _ + _)) by ring.
  assert (forall x, x = PI * IZR k -> cos x = cos (PI * IZR k)) as H1 by (by intros x ->).
  assert (forall x, x = - (PI * IZR k) -> cos x = cos (PI * IZR k)) as H2 by (intros x ->; apply cos_neg).
  rewrite (H2 (_ * (0 - 1 / 2) + _ + _)) by field. rewrite (H1 (_ * (1 / 2 - 0) + _ + _)) by field. ring.
Qed.
Example structure_factor_example :
  let s := fold_left (fun s c => sf_sample half_waves 1 (fun _ _ => 1) s (cfBox c) (cfAtoms c) (cfTy c) (cfPos c)) [half_conf; half_conf] (sf_setup (SF (fun _ _ => 7) 3 true [])) in
  sf_output s 0 0 = 0 /\ sf_output s 1 0 * kVol (cube_kb 1) = 4 /\ length (sfFile s) = 2%nat /\ sfFirst s = false /\
  length (sfFile (sf_sample half_waves 1 (fun _ _ => 1) (sf_restart s) (cube_kb 1) [0; 1]%nat (fun _ => 0%nat) half_pos)) = 1%nat.
Proof.
  pose proof (db_pos _ (cube_dual 1 ltac:(lra))) as HV. pose proof (half_value 1) as E1. pose proof (half_value 2) as E2.
  replace (PI * 1) with PI in E1 by ring. rewrite cos_PI in E1. replace (PI * 2) with (2 * PI) in E2 by ring. rewrite cos_2PI in E2.
  assert (HB : forall c, c ∈ [half_conf; half_conf] -> ewald_box (cfBox c)).
  { intros c Hc. apply elem_of_cons in Hc as [-> |Hc]; [apply half_box|]. apply elem_of_list_singleton in Hc as ->. apply half_box. }
  cbv zeta. split; [|split; [|split; [done|split; done]]].
  - rewrite (structure_factor_correct half_waves 1 (fun _ _ => 1) _ _ 0 0 (V3 1 0 0)%Z) by (done || lia). rewrite !sum_cons, sum_nil. cbn [half_conf cfBox cfTy cfPos cfAtoms].
    assert (structure_factor (cube_kb 1) (fun _ => 1) half_pos [0; 1]%nat (V3 1 0 0)%Z = 0) as -> by nra. lra.
  - rewrite (structure_factor_correct half_waves 1 (fun _ _ => 1) _ _ 1 0 (V3 2 0 0)%Z) by (done || lia). rewrite !sum_cons, sum_nil. cbn [half_conf cfBox cfTy cfPos cfAtoms].
    cbn [length INR]. lra.
Qed.
Example maximum_example : exists n, n ∈ half_waves /\ fst (fst (sf_max half_waves (cube_kb 1) (fun n => IZR (vx n)))) = Some n /\ n = (V3 2 0 0)%Z.
Proof.
  destruct (maximum_correct half_waves (cube_kb 1) (fun n => IZR (vx n))) as (n & H1 & H2 & H3); [done| |].
  { intros n [-> |Hn]%elem_of_cons; [cbn; lra|]. apply elem_of_list_singleton in Hn as ->. cbn. lra. }
  exists n. split; [done|]. split; [by rewrite H2|]. specialize (H3 (V3 2 0 0)%Z ltac:(right; left)). cbn [vx] in H3.
  apply elem_of_cons in H1 as [-> |H1]; [cbn [vx] in H3; lra|]. by apply elem_of_list_singleton in H1.
Qed.
Example vanhove_example : cnorm (vanhove_value (cube_kb 1) (fun _ => 1) half_pos (V3 2 0 0)%Z [0; 1]%nat) * kVol (cube_kb 1) = 4.
Proof.
  destruct (vanhove_correct (cube_kb 1) (fun _ => 1) half_pos (V3 2 0 0)%Z [0; 1]%nat half_box) as [-> _]. pose proof (half_value 2) as E.
  replace (PI * 2) with (2 * PI) in E by ring. rewrite cos_2PI in E. lra.
Qed.
(** Two molecules of one atom each: no interference between them, whatever the wave. *)
Example intra_example : forall k : Z, intra_value (cube_kb 1) half_pos (fun _ => 0%Z) (V3 k 0 0)%Z (-1) 0 [[0]; [1]]%nat * kVol (cube_kb 1) = 2.
Proof.
  intros k. pose proof (db_pos _ (cube_dual 1 ltac:(lra))) as HV. rewrite intra_structure_correct by apply half_box. unfold intra_factor. rewrite !sum_cons, !sum_nil.
  change (List.filter _ [0]%nat) with [0%nat]. change (List.filter _ [0]%nat) with [0%nat]. change (List.filter _ [1]%nat) with [1%nat]. change (List.filter _ [1]%nat) with [1%nat].
  rewrite !sum_cons, !sum_nil.
  assert (forall v, vdot (wavevector (cube_kb 1) (V3 k 0 0)%Z) (vsub v v) = 0) as H by (intros; unfold vdot, vsub; cbn [vx vy vz]; ring).
  rewrite !H, cos_0. field. lra.
Qed.

Print Assumptions structure_factor_correct.
Print Assumptions structure_factor_invariant.
Print Assumptions maximum_correct.
Print Assumptions restart_averages.
Print Assumptions restart_maxima_refuted.
Print Assumptions intra_structure_correct.
Print Assumptions vanhove_correct.
