(** Examples for C99-C101: a molecule of three atoms along x in a box of side 10. *)
From stdpp Require Import relations gmap.
From Verif Require Import Base Vec3 BoxSpec OrthoModel OrthoSpec OrthoProofs OrthoProps SpeciesModel SpeciesProofs PairListProps.
From Verif Require Import EnergyModel EnergySpec EnergyProofs MdModel MdSpec ClusterModel ClusterSpec ClusterComModel ClusterComSpec ClusterComProofs ClusterComProps AnaModel AnaSpec AnaProofs AnaRouse AnaMsd AnaProps.
From Coq Require Import Reals Lra.
Local Open Scope R_scope.

Definition line (f : nat -> R) (a : nat) : vec3 R := V3 (f a) 5 5.
Lemma line_image (x y : R) (k : Z) : y = x + IZR k * 10 -> V3 y 5 5 = vadd (V3 x 5 5) (lattice_vector (oBrav ex_box) (V3 k 0 0)%Z).
Proof.
  intros ->. destruct ex_wf as [lat W]. apply vec3_ext. intros i Hi. rewrite (lattice_get _ _ _ _ _ _ W Hi).
  destruct i as [|[|[|]]]; try lia; cbn [vget vx vy vz]; lra.
Qed.
Lemma line_contiguous f g (k : nat -> Z) : (forall a, a ∈ [0; 1; 2]%nat -> 0 <= f a < 10 /\ g a = f a + IZR (k a) * 10) ->
  Rabs (g 0%nat - g 1%nat) < 5 -> Rabs (g 1%nat - g 2%nat) < 5 -> contiguous ex_box (line f) (line g) [0; 1; 2]%nat.
Proof.
  intros H H1 H2. split.
  - intros a Ha. destruct (H a Ha) as [_ E]. exists (V3 (k a) 0 0)%Z. by apply line_image.
  - pose proof (H 0%nat ltac:(left)) as [F0 _]. pose proof (H 1%nat ltac:(right; left)) as [F1 _]. pose proof (H 2%nat ltac:(right; right; left)) as [F2 _].
    apply Rabs_def2 in H1, H2.
    cbn [chain]. split; [|split; [|done]]; split; intros i Hi; rewrite ex_len; destruct i as [|[|[|]]]; try lia; unfold vsub, line; cbn [vget vx vy vz]; unfold Rabs; destruct (Rcase_abs _); lra.
Qed.
Lemma shift1_id r : in_box ex_box r -> shift1 ex_box r = r.
Proof.
  intros H. destruct (shift1_near ex_box r ex_a_box) as (H1 & n & En).
  - intros i Hi. specialize (H i Hi). rewrite ex_len in *. destruct i as [|[|[|]]]; try lia; cbn [vget vx vy vz] in *; lra.
  - symmetry. apply (box_unique ex_box _ n _ ex_a_box H H1). destruct ex_wf as [lat W]. apply vec3_ext. intros i Hi. rewrite (lattice_get _ _ _ _ _ _ W Hi), <- (w_len _ _ _ W). by apply En.
Qed.
Lemma line_in f a : 0 <= f a < 10 -> in_box ex_box (line f a).
Proof. intros H i Hi. rewrite ex_len. destruct i as [|[|[|]]]; try lia; cbn [line vget vx vy vz]; lra. Qed.
Lemma cases3 (P : nat -> Prop) : P 0%nat -> P 1%nat -> P 2%nat -> forall a, a ∈ [0; 1; 2]%nat -> P a.
Proof. intros H0 H1 H2 a Ha. rewrite !elem_of_cons, elem_of_nil in Ha. destruct Ha as [->|[->|[->|[]]]]; done. Qed.

(** Atoms at 9.5, 0.5 and 3.5 along x, across a face; images at 9.5, 10.5 and 13.5. *)
Definition tri_f (a : nat) : R := match a with O => 19/2 | 1%nat => 1/2 | _ => 7/2 end.
Definition tri_g (a : nat) : R := match a with O => 19/2 | 1%nat => 21/2 | _ => 27/2 end.
Lemma tri_contiguous : contiguous ex_box (line tri_f) (line tri_g) [0; 1; 2]%nat.
Proof.
  apply (line_contiguous _ _ (fun a => match a with O => 0 | _ => 1 end)%Z).
  - apply cases3; cbn [tri_f tri_g]; lra.
  - unfold Rabs; destruct (Rcase_abs _); cbn [tri_g] in *; lra.
  - unfold Rabs; destruct (Rcase_abs _); cbn [tri_g] in *; lra.
Qed.
Definition tri_ty (a : nat) : nat := match a with 2%nat => 1%nat | _ => 0%nat end.
Lemma inr3 : INR 3 = 3. Proof. cbn; lra. Qed.
Lemma inr2 : INR 2 = 2. Proof. cbn; lra. Qed.

Example radius_gyration_example : rg_compute (dr_of ex_box) (line tri_f) 3 [[0; 1; 2]%nat] = Ok (Some (26/9)).
Proof.
  rewrite (radius_gyration_correct ex_box 3 _ (line tri_f) (line tri_g)); [|apply ex_a_box|done|lia|intros mol ->%elem_of_list_singleton; split; [done|apply tri_contiguous]].
  do 2 f_equal. unfold mol_mean, gyration, mean, vsum_over, sum_over, normSq, vdot, vsub, vscale, line. cbn [map Rsum length vx vy vz tri_g]. rewrite inr3. change (INR 1) with 1. field.
Qed.
Example block_gyration_example :
  blk_own (dr_of ex_box) (line tri_f) tri_ty [[0; 1; 2]%nat] 0 = Ok (Some (1/4)) /\
  blk_pair (dr_of ex_box) (line tri_f) tri_ty [[0; 1; 2]%nat] 0 1 = Ok (Some (49/4)) /\
  blk_own (dr_of ex_box) (line tri_f) tri_ty [[0; 1; 2]%nat] 7 = Ok None.
Proof.
  split; [|split].
  - rewrite (block_gyration_correct ex_box _ (line tri_f) (line tri_g)); [|apply ex_a_box|done|cbn; lia|intros mol ->%elem_of_list_singleton; split; [done|apply tri_contiguous]].
    do 2 f_equal. change (of_type tri_ty 0 [0; 1; 2]%nat) with [0; 1]%nat. unfold mol_mean, gyration, sum_over. cbn [map Rsum]. change (of_type tri_ty 0 [0; 1; 2]%nat) with [0; 1]%nat.
    unfold mean, vsum_over, sum_over, normSq, vdot, vsub, vscale, line. cbn [map Rsum length vx vy vz tri_g]. rewrite inr2. change (INR 1) with 1. field.
  - rewrite (block_pair_correct ex_box _ (line tri_f) (line tri_g)); [|apply ex_a_box|done|cbn; lia|cbn; lia|intros mol ->%elem_of_list_singleton; split; [done|split; [done|apply tri_contiguous]]].
    do 2 f_equal. unfold mol_mean, sum_over. cbn [map Rsum]. change (of_type tri_ty 0 [0; 1; 2]%nat) with [0; 1]%nat. change (of_type tri_ty 1 [0; 1; 2]%nat) with [2]%nat.
    unfold mean, vsum_over, sum_over, normSq, vdot, vsub, vscale, line. cbn [map Rsum length vx vy vz tri_g]. rewrite inr2. change (INR 1) with 1. field.
  - by apply block_gyration_absent_refuted; [done|intros mol ->%elem_of_list_singleton].
Qed.
(** An atom which moves by 4 between samples: stored at 9, 3, 7 and 1. *)
Example atom_msd_example :
  kTrue (fold_left (atom_sample ex_box) [V3 3 5 5; V3 7 5 5; V3 1 5 5] (msd_setup ex_box (V3 9 5 5))) = V3 21 5 5.
Proof.
  set (p := fun j : nat => match j with O => V3 9 5 5 | 1%nat => V3 3 5 5 | 2%nat => V3 7 5 5 | _ => V3 1 5 5 end).
  set (w := fun j : nat => match j with O => V3 9 5 5 | 1%nat => V3 13 5 5 | 2%nat => V3 17 5 5 | _ => V3 21 5 5 end).
  change [V3 3 5 5; V3 7 5 5; V3 1 5 5] with (map p (seq 1 3)). change (V3 9 5 5) with (p 0%nat).
  rewrite (atom_msd_correct ex_box w p 3).
  - rewrite shift1_id; [unfold vadd, vsub; cbn [p w vx vy vz]; f_equal; lra|]. intros i Hi. rewrite ex_len. destruct i as [|[|[|]]]; try lia; cbn [p vget vx vy vz]; lra.
  - apply ex_a_box.
  - intros j Hj. split.
    + intros i Hi. rewrite ex_len. destruct j as [|[|[|]]]; destruct i as [|[|[|]]]; try lia; cbn [p vget vx vy vz]; lra.
    + exists (V3 (match j with O => 0 | 1%nat => 1 | 2%nat => 1 | _ => 2 end) 0 0)%Z. destruct j as [|[|[|]]]; cbn [p w]; apply line_image; lra.
  - intros j Hj i Hi. rewrite ex_len. destruct j as [|[|[|]]]; try lia; destruct i as [|[|[|]]]; try lia; unfold vsub; cbn [w vget vx vy vz]; unfold Rabs; destruct (Rcase_abs _); lra.
  - lia.
Qed.
(** The molecule at 2, 4 and 5 moves by 3 along x, without crossing a face: 2 is reported. *)
Example com_msd_example : forall t, exists t1 t2,
  com_sample ex_box 3 (line (fun a => match a with O => 2 | 1%nat => 4 | _ => 5 end)) [0; 1; 2]%nat t = Ok t1 /\
  com_sample ex_box 3 (line (fun a => match a with O => 5 | 1%nat => 7 | _ => 8 end)) [0; 1; 2]%nat t1 = Ok t2 /\ vsub (kTrue t2) (kTrue t1) = V3 2 0 0.
Proof.
  intros t. set (f := fun a : nat => match a with O => 2 | 1%nat => 4 | _ => 5 end). set (g := fun a : nat => match a with O => 5 | 1%nat => 7 | _ => 8 end).
  destruct (com_msd_refuted ex_box 3 0%nat [1; 2]%nat (line f) (line f) (line g) (line g) (V3 3 0 0) t) as (t1 & t2 & E1 & E2 & E3).
  - apply ex_a_box.
  - lia.
  - done.
  - apply (line_contiguous _ _ (fun _ => 0%Z)); [apply cases3; cbn [f]; lra| |]; unfold Rabs; destruct (Rcase_abs _); cbn [f] in *; lra.
  - apply (line_contiguous _ _ (fun _ => 0%Z)); [apply cases3; cbn [g]; lra| |]; unfold Rabs; destruct (Rcase_abs _); cbn [g] in *; lra.
  - intros i Hi. rewrite ex_len. destruct i as [|[|[|]]]; try lia; cbn [line f vget vx vy vz]; lra.
  - intros i Hi. rewrite ex_len. destruct i as [|[|[|]]]; try lia; cbn [line g vget vx vy vz]; lra.
  - apply cases3; unfold line, vadd; cbn [f g vx vy vz]; f_equal; lra.
  - intros i Hi. rewrite ex_len. destruct i as [|[|[|]]]; try lia; cbn [vget vx vy vz]; unfold Rabs; destruct (Rcase_abs _); lra.
  - exists t1, t2. split; [done|]. split; [done|]. rewrite E3, !shift1_id by (apply line_in; cbn [f g]; lra). rewrite inr3. unfold vsub, vadd, vscale, line. cbn [f g vx vy vz]. f_equal; field.
Qed.
(** Mode 2 of the molecule across the face. *)
Example linear_rouse_example : rouse_data (dr_of ex_box) (line tri_f) (linear_projector 3 2) [0; 1; 2]%nat = Ok (V3 (1/3) 0 0).
Proof.
  destruct (linear_rouse_even ex_box 3 2 0%nat [1; 2]%nat (line tri_f) (line tri_g) ex_a_box ltac:(lia) eq_refl ltac:(lia) eq_refl tri_contiguous) as [E _].
  etransitivity; [exact E|]. f_equal. unfold weighted, vsum_over, sum_over, rouse_weight, line, vscale.
  cbn [length seq map Rsum nth Nat.eqb Nat.sub orb vx vy vz tri_g]. rewrite inr3, !inr2. change (INR 0) with 0. change (INR 1) with 1.
  replace (PI * 2 * 0 / 2) with 0 by field. replace (PI * 2 * 1 / 2) with PI by field. replace (PI * 2 * 2 / 2) with (2 * PI) by field. rewrite cos_0, cos_PI, cos_2PI. f_equal; field.
Qed.
(** Mode 1 of the molecule at 2, 4 and 5 changes by -1 when it is moved by 3. *)
Example linear_rouse_odd_example : exists v v',
  rouse_data (dr_of ex_box) (line (fun a => match a with O => 2 | 1%nat => 4 | _ => 5 end)) (linear_projector 3 1) [0; 1; 2]%nat = Ok v /\
  rouse_data (dr_of ex_box) (line (fun a => match a with O => 5 | 1%nat => 7 | _ => 8 end)) (linear_projector 3 1) [0; 1; 2]%nat = Ok v' /\ vsub v' v = V3 (-1) 0 0.
Proof.
  set (f := fun a : nat => match a with O => 2 | 1%nat => 4 | _ => 5 end). set (g := fun a : nat => match a with O => 5 | 1%nat => 7 | _ => 8 end).
  destruct (linear_rouse_odd_refuted ex_box 3 1 0%nat [1; 2]%nat (line f) (line f) (line g) (line g) (V3 3 0 0)) as (v & v' & E1 & E2 & E3); [apply ex_a_box|lia|done|lia|done| | | |].
  - apply (line_contiguous _ _ (fun _ => 0%Z)); [apply cases3; cbn [f]; lra| |]; unfold Rabs; destruct (Rcase_abs _); cbn [f] in *; lra.
  - apply (line_contiguous _ _ (fun _ => 0%Z)); [apply cases3; cbn [g]; lra| |]; unfold Rabs; destruct (Rcase_abs _); cbn [g] in *; lra.
  - apply cases3; unfold line, vadd; cbn [f g vx vy vz]; f_equal; lra.
  - exists v, v'. split; [done|]. split; [done|]. rewrite E3, inr3. unfold vsub, vscale, line. cbn [f g vx vy vz]. f_equal; field.
Qed.
(** Ring mode 2 of the molecule: cosines of multiples of 2 PI / 3. *)
Example ring_rouse_example : rouse_data (dr_of ex_box) (line tri_f) (ring_projector 3 2) [0; 1; 2]%nat = Ok (V3 (-5/6) 0 0).
Proof.
  destruct (ring_rouse_correct ex_box 3 2 0%nat [1; 2]%nat (line tri_f) (line tri_g) ex_a_box eq_refl ltac:(lia) tri_contiguous) as [E _].
  etransitivity; [exact E|]. f_equal. unfold weighted, vsum_over, sum_over, ring_weight, line, vscale. change (Nat.even 2) with true. change (2 / 2)%nat with 1%nat. cbv iota.
  cbn [length seq map Rsum nth vx vy vz tri_g]. rewrite inr3, inr2. change (INR 0) with 0. change (INR 1) with 1.
  replace (2 * PI * 1 * 0 / 3) with 0 by field. replace (2 * PI * 1 * 1 / 3) with (2 * (PI / 3)) by field. replace (2 * PI * 1 * 2 / 3) with (PI / 3 + PI) by field.
  rewrite cos_0, neg_cos, cos_2a, cos_PI3, sin_PI3. assert (sqrt 3 * sqrt 3 = 3) as H by (apply sqrt_sqrt; lra). 
  replace (1 / 2 * (1 / 2) - sqrt 3 / 2 * (sqrt 3 / 2)) with (1/4 - (sqrt 3 * sqrt 3) / 4) by field. rewrite H. f_equal; field.
Qed.
