(** Radii of gyration (C99), displacements (C100) and Rouse modes (C101). *)
From stdpp Require Import relations gmap.
From Verif Require Import Base Vec3 BoxSpec OrthoModel OrthoSpec OrthoProofs OrthoProps SpeciesModel SpeciesProofs.
From Verif Require Import EnergyModel EnergySpec EnergyProofs MdModel MdSpec ClusterModel ClusterSpec ClusterComModel ClusterComSpec ClusterComProofs AnaModel AnaSpec AnaProofs AnaRouse AnaMsd.
From Coq Require Import Reals Lra.
Local Open Scope R_scope.

Notation dr_of b := (fun r1 r2 => (distanceSq_dr b r1 r2).2).

(** C99.  For molecules whose consecutive atoms have images less than half an edge apart along each axis, RadiusGyrationSq::compute returns the
    mean over molecules of the mean squared distance of these images from their mean.  (The array positions_ holds the mirror image of
    the molecule, which has the same radius.) *)
Theorem radius_gyration_correct :
  forall b n mols pos u, a_box b -> mols <> [] -> (0 < n)%nat ->
  (forall mol, mol ∈ mols -> length mol = n /\ contiguous b pos u mol) ->
  rg_compute (dr_of b) pos n mols = Ok (Some (mol_mean mols (fun mol => gyration mol u))).
Proof.
  intros b n mols pos u Hb Hne Hn Hm. unfold rg_compute.
  rewrite (foldM_sum _ (fun mol => INR n * gyration mol u)).
  - cbn [obind]. rewrite sum_mul_const. unfold mol_mean. assert (0 < INR n) by (by apply lt_0_INR).
    destruct (length mols) eqn:E; [by destruct mols|]. f_equal. f_equal.
    assert (0 < INR (S n0)) by (apply lt_0_INR; lia). field. lra.
  - intros mol d Hmol. destruct (Hm mol Hmol) as [Hlen HC]. destruct mol as [|a mol]; [cbn in Hlen; lia|].
    rewrite (back_walk_spec b Hb pos u) by done. cbn [obind]. set (A := a :: mol) in *. set (c := vadd (pos a) (u a)).
    rewrite sum_sel_spec, add_sq_spec. assert (EF : List.filter (fun _ : nat => true) A = A) by (clear; induction A as [|x A IH]; [done|]; cbn [List.filter]; by rewrite IH).
    rewrite EF. f_equal. f_equal. assert (HA : A <> []) by done. rewrite <- Hlen. fold (mean A (fun x => vsub c (u x))). rewrite mean_mirror by done.
    unfold gyration. rewrite <- Rmult_assoc, Rinv_r, Rmult_1_l by (apply not_0_INR; cbn; lia).
    apply sum_ext_in. intros x _. apply mirror_sq.
Qed.

(** C99.  The same for the blocks of BlockRadiusGyration: each type that occurs, equally often in all molecules. *)
Theorem block_gyration_correct :
  forall b mols pos u ty i, a_box b -> mols <> [] -> (0 < blk_count ty mols i)%nat ->
  (forall mol, mol ∈ mols -> length (of_type ty i mol) = blk_count ty mols i /\ contiguous b pos u mol) ->
  blk_own (dr_of b) pos ty mols i = Ok (Some (mol_mean mols (fun mol => gyration (of_type ty i mol) u))).
Proof.
  intros b mols pos u ty i Hb Hne Hn Hm. unfold blk_own. set (n := blk_count ty mols i) in *.
  rewrite (foldM_sum _ (fun mol => INR n * gyration (of_type ty i mol) u)).
  - cbn [obind]. rewrite sum_mul_const. unfold mol_mean. assert (0 < INR n) by (by apply lt_0_INR).
    destruct n as [|n]; [lia|]. destruct (length mols) eqn:E; [by destruct mols|]. f_equal. f_equal.
    assert (0 < INR (S n0)) by (apply lt_0_INR; lia). field. lra.
  - intros mol d Hmol. destruct (Hm mol Hmol) as [Hlen HC]. destruct mol as [|a mol]; [cbn in Hlen; lia|].
    rewrite (back_walk_spec b Hb pos u) by done. cbn [obind]. set (c := vadd (pos a) (u a)).
    rewrite sum_sel_spec, add_sq_spec. fold (of_type ty i (a :: mol)). set (A := of_type ty i (a :: mol)) in *.
    f_equal. f_equal. assert (HA : A <> []) by (intros E; rewrite E in Hlen; cbn in Hlen; lia). rewrite <- Hlen. fold (mean A (fun x => vsub c (u x))). rewrite mean_mirror by done.
    unfold gyration. rewrite <- Rmult_assoc, Rinv_r, Rmult_1_l by (apply not_0_INR; lia).
    apply sum_ext_in. intros x _. apply mirror_sq.
Qed.
Theorem block_pair_correct :
  forall b mols pos u ty l m, a_box b -> mols <> [] -> (0 < blk_count ty mols l)%nat -> (0 < blk_count ty mols m)%nat ->
  (forall mol, mol ∈ mols -> length (of_type ty l mol) = blk_count ty mols l /\ length (of_type ty m mol) = blk_count ty mols m /\ contiguous b pos u mol) ->
  blk_pair (dr_of b) pos ty mols l m = Ok (Some (mol_mean mols (fun mol => normSq (vsub (mean (of_type ty l mol) u) (mean (of_type ty m mol) u))))).
Proof.
  intros b mols pos u ty l m Hb Hne Hl0 Hm0 Hm. unfold blk_pair. set (nl := blk_count ty mols l) in *. set (nm := blk_count ty mols m) in *.
  rewrite (foldM_sum _ (fun mol => normSq (vsub (mean (of_type ty l mol) u) (mean (of_type ty m mol) u)))).
  - cbn [obind]. unfold mol_mean. 
    destruct nl as [|nl']; [lia|]. destruct nm as [|nm']; [lia|]. destruct (length mols) eqn:E; [by destruct mols|]. f_equal. f_equal.
    assert (0 < INR (S n)) by (apply lt_0_INR; lia). field. lra.
  - intros mol d Hmol. destruct (Hm mol Hmol) as (Hl & Hm' & HC). destruct mol as [|a mol]; [cbn in Hl; lia|].
    rewrite (back_walk_spec b Hb pos u) by done. cbn [obind]. set (c := vadd (pos a) (u a)).
    rewrite !sum_sel_spec. fold (of_type ty l (a :: mol)) (of_type ty m (a :: mol)). set (A := of_type ty l (a :: mol)) in *. set (B := of_type ty m (a :: mol)) in *.
    f_equal. f_equal. assert (HA : A <> []) by (intros E; rewrite E in Hl; cbn in Hl; lia). assert (HB : B <> []) by (intros E; rewrite E in Hm'; cbn in Hm'; lia).
    rewrite <- Hl, <- Hm'. fold (mean A (fun x => vsub c (u x))) (mean B (fun x => vsub c (u x))). rewrite !mean_mirror by done.
    unfold normSq, vdot, vsub. cbn [vx vy vz]. ring.
Qed.
(** A type that does not occur in the molecules of the species divides by zero: its radius and its distances from all other types. *)
Theorem block_gyration_absent_refuted :
  forall b mols pos ty i, mols <> [] -> (forall mol, mol ∈ mols -> mol <> [] /\ of_type ty i mol = []) ->
  blk_own (dr_of b) pos ty mols i = Ok None /\ forall m, blk_pair (dr_of b) pos ty mols i m = Ok None /\ blk_pair (dr_of b) pos ty mols m i = Ok None.
Proof.
  intros b mols pos ty i Hne Hm.
  assert (H0 : blk_count ty mols i = 0%nat).
  { destruct mols as [|mol mols]; [done|]. destruct (Hm mol ltac:(left)) as [_ E]. unfold blk_count. fold (of_type ty i mol). by rewrite E. }
  assert (F : forall f d, (forall mol d, mol <> [] -> exists d', f d mol = Ok d') -> exists d', foldM f d mols = Ok (d' : R)).
  { intros f d Hf. revert d. assert (Hm' : forall mol, mol ∈ mols -> mol <> []) by (intros; by apply Hm). clear Hm Hne H0.
    induction mols as [|mol mols IH]; intros d; cbn [foldM]; [eauto|]. destruct (Hf mol d) as (d' & ->); [apply Hm'; left|]. cbn [obind]. apply IH. intros; apply Hm'; by right. }
  assert (BW : forall mol, mol <> [] -> exists ps, back_walk (dr_of b) pos mol = Ok ps) by (intros [|a mol] H; [done|]; by eexists).
  split; [|intros m; split].
  - unfold blk_own. rewrite H0. edestruct F as (d & E); [|rewrite E; done]. intros mol d Hne'. destruct (BW mol Hne') as (ps & ->). cbn [obind]. eauto.
  - unfold blk_pair. rewrite H0. edestruct F as (d & E); [|rewrite E; done]. intros mol d Hne'. destruct (BW mol Hne') as (ps & ->). cbn [obind]. eauto.
  - unfold blk_pair. rewrite H0. edestruct F as (d & E); [|rewrite E; cbn [obind]; by destruct (blk_count ty mols m)]. intros mol d Hne'. destruct (BW mol Hne') as (ps & ->). cbn [obind]. eauto.
Qed.

(** C100.  An atom whose unwrapped positions w move by less than half an edge along each axis between samples, and whose positions are images of
    w in or near the cell: after every sample truePositions_ is w up to a constant, so all displacements are exact whatever the number of
    faces crossed. *)
Theorem atom_msd_correct :
  forall b (w p : nat -> vec3 R) k, a_box b ->
  (forall j, (j <= k)%nat -> near_cell b (p j) /\ exists n, w j = vadd (p j) (lattice_vector (oBrav b) n)) ->
  (forall j, (j < k)%nat -> half_about (oLen b) (w j) (w (S j))) ->
  (0 < k)%nat ->
  kTrue (fold_left (atom_sample b) (map p (seq 1 k)) (msd_setup b (p 0%nat))) = vadd (w k) (vsub (shift1 b (p 0%nat)) (w 0%nat)).
Proof.
  intros b w p k Hb Hp Hw Hk. set (c := vsub (shift1 b (p 0%nat)) (w 0%nat)).
  destruct (owf_a_box b Hb) as (l & lat & W).
  assert (H0 : near_cell b (p 0%nat)) by (apply Hp; lia). destruct (shift1_near b (p 0%nat) Hb H0) as (Hin0 & m0 & Em0).
  assert (I : forall j, (j <= k)%nat -> let t := fold_left (atom_sample b) (map p (seq 1 j)) (msd_setup b (p 0%nat)) in
     in_box b (kOld t) /\ add_shift b (kOld t) (kShift t) = vadd (w j) c /\ ((0 < j)%nat -> kTrue t = vadd (w j) c)).
  { induction j as [|j IH]; intros Hj.
    - cbn [seq map fold_left]. cbv zeta. split; [done|]. split; [|lia]. unfold msd_setup, add_shift, c. destruct (w 0%nat) as [w1 w2 w3]. cbn [kOld kShift vx vy vz vadd vsub].
      unfold vadd, vsub. cbn [vx vy vz]. f_equal; lra.
    - rewrite seq_S, map_app, fold_left_app. cbn [map fold_left]. cbv zeta. destruct IH as (I1 & I2 & _); [lia|]. set (t := fold_left _ _ _) in *.
      destruct (Hp (S j) Hj) as [Hn (n & En)].
      assert (exists n' : vec3 Z, forall i, (i < 3)%nat -> vget (p (S j)) i + IZR (vget n' i) * vget (oLen b) i = vget (w (S j)) i + vget c i) as Hx.
      { destruct (Hp 0%nat ltac:(lia)) as [_ (n0 & En0)].
        exists (V3 (vx n - vx n0 - vx m0) (vy n - vy n0 - vy m0) (vz n - vz n0 - vz m0))%Z. intros i Hi. unfold c. rewrite vget_vsub, En, En0, !(lattice_get b l lat) by done.
        rewrite (w_len _ _ _ W) in *. specialize (Em0 i Hi).
        assert (G : vget (V3 (vx n - vx n0 - vx m0) (vy n - vy n0 - vy m0) (vz n - vz n0 - vz m0))%Z i = (vget n i - vget n0 i - vget m0 i)%Z) by (by destruct i as [|[|[|]]]; try lia).
        rewrite G, !minus_IZR. lra. }
      change (1 + j)%nat with (S j).
      destruct (track_step b t (p (S j)) (w j) (w (S j)) c Hb I1 Hn (Hw j Hj) I2 Hx) as [A B]. unfold atom_sample. cbv zeta. cbn [kOld kShift kTrue]. done. }
  by apply (I k).
Qed.

(** C100.  ComMSD for a molecule of one atom is AtomMSD of this atom. *)
Theorem com_msd_single : forall b pos a t, com_sample b 1 pos [a] t = Ok (atom_sample b t (pos a)).
Proof.
  intros. unfold com_sample, moleculeCom, atom_sample. cbv zeta. cbn [take Nat.sub walk fold_left obind].
  assert (forall v, vscale (/ INR 1) v = v) as ->; [|done].
  intros [x y z]. change (INR 1) with 1. rewrite Rinv_1. unfold vscale. cbn [vx vy vz]. by rewrite !Rmult_1_l.
Qed.
(** For every molecule of two or more atoms ComMSD is wrong: when the molecule is translated by d, by less than half an edge, the reported
    displacement differs from d by 1/n of the change of the position, in the cell, of the first atom.  (The sum leaves out the last atom of n.)
    So it reports (1 - 1/n) d as long as no face is crossed, and jumps by 1/n of an edge at each face. *)
Theorem com_msd_refuted :
  forall b n a mol pos u pos' u' d t, a_box b -> (2 <= n)%nat -> length (a :: mol) = n ->
  contiguous b pos u (a :: mol) -> contiguous b pos' u' (a :: mol) -> near_cell b (pos a) -> near_cell b (pos' a) ->
  (forall x, x ∈ a :: mol -> u' x = vadd (u x) d) -> (forall i, (i < 3)%nat -> Rabs (vget d i) < vget (oLen b) i / 2) -> 
  exists t1 t2, com_sample b n pos (a :: mol) t = Ok t1 /\ com_sample b n pos' (a :: mol) t1 = Ok t2 /\
  kTrue t2 = vadd (kTrue t1) (vsub d (vscale (/ INR n) (vsub (shift1 b (pos' a)) (shift1 b (pos a))))).
Proof.
  intros b n a mol pos u pos' u' d t Hb Hn Hl HC HC' Hna Hna' Hu Hd. destruct (owf_a_box b Hb) as (l & lat & W). assert (HnR : 0 < INR n) by (apply lt_0_INR; lia).
  unfold com_sample. rewrite (com_shape b pos u n) by done. cbn [obind]. eexists _, _. split; [reflexivity|]. rewrite (com_shape b pos' u' n) by done. cbn [obind]. split; [reflexivity|].
  set (r := shift1 b (pos a)). set (r' := shift1 b (pos' a)). set (s := next_shift b t r). cbn [kTrue].
  set (t1 := Track r s _). destruct (shift1_near b (pos a) Hb Hna) as (Hr & m & Em). fold r in Hr, Em.
  pose proof (track_step b t1 (pos' a) (add_shift b r s) (vadd (add_shift b r s) d) (V3 0 0 0) Hb Hr Hna') as T. cbv zeta in T. fold r' in T.
  assert (ET : add_shift b r' (next_shift b t1 r') = vadd (add_shift b r s) d).
  { destruct T as [_ T].
    - intros i Hi. rewrite vget_vsub, vget_vadd. replace (_ - _) with (vget d i) by lra. by apply Hd.
    - unfold t1. cbn [kOld kShift]. unfold vadd. destruct (add_shift b r s) as [x y z]. cbn [vx vy vz]. f_equal; lra.
    - destruct HC as [HC _], HC' as [HC' _]. destruct (HC a ltac:(left)) as (k & Ek), (HC' a ltac:(left)) as (k' & Ek').
      exists (V3 (vx k' - vx k - vx m + vx s) (vy k' - vy k - vy m + vy s) (vz k' - vz k - vz m + vz s))%Z. intros i Hi. rewrite vget_vadd, vget_add_shift by done.
      assert (E1 : vget (u' a) i = vget (vadd (u a) d) i) by (rewrite Hu by left; done). rewrite vget_vadd, Ek, Ek', !(lattice_get b l lat) in E1 by done. specialize (Em i Hi). rewrite (w_len _ _ _ W) in *.
      assert (G : vget (V3 (vx k' - vx k - vx m + vx s) (vy k' - vy k - vy m + vy s) (vz k' - vz k - vz m + vz s))%Z i = (vget k' i - vget k i - vget m i + vget s i)%Z) by (by destruct i as [|[|[|]]]; try lia).
      assert (G0 : vget (V3 0 0 0) i = 0) by (by destruct i as [|[|[|]]]; try lia). rewrite G, G0, plus_IZR, !minus_IZR. lra.
    - rewrite T. unfold vadd. destruct (add_shift b r s) as [x1 x2 x3], d as [d1 d2 d3]. cbn [vx vy vz]. f_equal; lra. }
  assert (EV : vsum_over (take (n - 2) mol) (fun x => vsub (u' x) (u' a)) = vsum_over (take (n - 2) mol) (fun x => vsub (u x) (u a))).
  { unfold vsum_over. assert (forall x, x ∈ take (n - 2) mol -> vsub (u' x) (u' a) = vsub (u x) (u a)) as H.
    { intros x Hx. rewrite (Hu a) by left. rewrite (Hu x) by (right; apply elem_of_take in Hx as (i & Hx & _); by eapply elem_of_list_lookup_2). unfold vsub, vadd; cbn [vx vy vz]; f_equal; ring. }
    f_equal; apply sum_ext_in; intros x Hx; by rewrite H. }
  rewrite EV. set (V := vsum_over _ _). apply vec3_ext. intros i Hi.
  assert (ETi : vget (add_shift b r' (next_shift b t1 r')) i = vget (vadd (add_shift b r s) d) i) by (by rewrite ET).
  rewrite vget_vadd, !vget_add_shift in ETi by done. rewrite !vget_vadd, !vget_add_shift, !vget_vsub, !vget_vadd by done.
  assert (SC : forall x v, vget (vscale x v) i = x * vget v i) by (intros x v; destruct i as [|[|[|]]]; try lia; done). rewrite !SC, !vget_vsub. fold r r'.
  unfold t1. cbn [kTrue]. set (N := vget (next_shift _ _ _) i) in *. 
  assert (IZR N * vget (oLen b) i = vget r i + IZR (vget s i) * vget (oLen b) i + vget d i - vget r' i) as -> by lra. unfold N. ring.
Qed.

(** C101.  Modes of even index of linear molecules: LinearRouseAutoCorr computes the sum of the images of the atoms with the weights of the
    mode, whichever images are used, and it does not change when the molecule is translated. *)
Theorem linear_rouse_even :
  forall b n p a mol pos u, a_box b -> (2 <= n)%nat -> length (a :: mol) = n -> (0 < p < n)%nat -> Nat.even p = true -> contiguous b pos u (a :: mol) ->
  rouse_data (dr_of b) pos (linear_projector n p) (a :: mol) = Ok (weighted (rouse_weight n p) (a :: mol) u) /\
  forall d, weighted (rouse_weight n p) (a :: mol) (fun x => vadd d (u x)) = weighted (rouse_weight n p) (a :: mol) u.
Proof.
  intros b n p a mol pos u Hb Hn Hl Hp Hev HC. assert (0 < INR n) by (apply lt_0_INR; lia). assert (Hn1 : 0 < INR (n - 1)) by (apply lt_0_INR; lia).
  assert (EW : forall j, (j < n)%nat -> linear_projector n p j = rouse_weight n p j).
  { intros j Hj. unfold linear_projector, rouse_weight. cbv zeta. destruct p as [|p']; [lia|]. set (p := S p') in *. change (match p with O => 1 / INR n | S _ => ?x end) with x.
    destruct (decide (j = n - 1)%nat) as [->|Hj1].
    - rewrite decide_False by lia. rewrite Nat.eqb_refl, orb_true_r. 
      replace (PI * INR p / INR (n - 1) * INR (n - 1)) with (INR p * PI + 0) by (field; lra). replace (PI * INR p * INR (n - 1) / INR (n - 1)) with (INR p * PI + 0) by (field; lra).
      apply Nat.even_spec in Hev as (k & ->). rewrite cos_even, cos_0. field. lra.
    - destruct (decide (j = 0)%nat) as [->|Hj0].
      + cbn [Nat.eqb orb]. change (INR 0) with 0. rewrite !Rmult_0_r. replace (0 / INR (n - 1)) with 0 by (field; lra). rewrite cos_0. field. lra.
      + assert (Nat.eqb j 0 = false) as -> by (by apply Nat.eqb_neq). assert (Nat.eqb j (n - 1) = false) as -> by (by apply Nat.eqb_neq). cbn [orb].
        replace (PI * INR p / INR (n - 1) * INR j) with (PI * INR p * INR j / INR (n - 1)) by (field; lra). field. lra. }
  assert (ES : sum_over (seq 0 (length (a :: mol))) (linear_projector n p) = 0) by (rewrite Hl, linear_sum by done; by rewrite Hev).
  assert (EX : forall v, weighted (linear_projector n p) (a :: mol) v = weighted (rouse_weight n p) (a :: mol) v) by (intros v; apply weighted_ext; [|done]; intros j Hj; apply EW; lia).
  split.
  - rewrite (rouse_spec b pos u) by done. rewrite ES, EX. destruct (weighted _ _ _) as [x y z]. unfold vadd, vscale. cbn [vx vy vz]. do 2 f_equal; ring.
  - intros d. rewrite <- !EX, weighted_plus, ES. destruct (weighted _ _ _) as [x y z]. unfold vadd, vscale. cbn [vx vy vz]. f_equal; ring.
Qed.
(** For odd p the last weight should be half of the cosine, which is -1; the constructor subtracts 1/2 instead, so the weights have the sum -1/n.
    Translating a molecule changes the mode, for all molecules: by -1/n of the displacement of the first atom, also when only another image of it
    is stored. *)
Theorem linear_rouse_odd_refuted :
  forall b n p a mol pos u pos' u' d, a_box b -> (2 <= n)%nat -> length (a :: mol) = n -> (0 < p < n)%nat -> Nat.even p = false ->
  contiguous b pos u (a :: mol) -> contiguous b pos' u' (a :: mol) -> (forall x, x ∈ a :: mol -> u' x = vadd d (u x)) ->
  exists v v', rouse_data (dr_of b) pos (linear_projector n p) (a :: mol) = Ok v /\ rouse_data (dr_of b) pos' (linear_projector n p) (a :: mol) = Ok v' /\
  v' = vsub v (vscale (/ INR n) (vsub (pos' a) (pos a))).
Proof.
  intros b n p a mol pos u pos' u' d Hb Hn Hl Hp Hev HC HC' Hu. assert (0 < INR n) by (apply lt_0_INR; lia).
  assert (ES : sum_over (seq 0 (length (a :: mol))) (linear_projector n p) = - (1 / INR n)) by (rewrite Hl, linear_sum by done; by rewrite Hev).
  eexists _, _. split; [by apply (rouse_spec b pos u)|]. split; [by apply (rouse_spec b pos' u')|].
  rewrite (weighted_ext _ (linear_projector n p) _ u' (fun x => vadd d (u x))) by (done || apply Hu). rewrite weighted_plus, ES. rewrite (Hu a) by left.
  unfold vadd, vsub, vscale. cbn [vx vy vz]. f_equal; field; lra.
Qed.
(** C101.  All modes of index 1 and more of ring molecules. *)
Theorem ring_rouse_correct :
  forall b n p a mol pos u, a_box b -> length (a :: mol) = n -> (0 < p < n)%nat -> contiguous b pos u (a :: mol) ->
  rouse_data (dr_of b) pos (ring_projector n p) (a :: mol) = Ok (weighted (ring_weight n p) (a :: mol) u) /\
  forall d, weighted (ring_weight n p) (a :: mol) (fun x => vadd d (u x)) = weighted (ring_weight n p) (a :: mol) u.
Proof.
  intros b n p a mol pos u Hb Hl Hp HC. assert (0 < INR n) by (apply lt_0_INR; lia).
  assert (EW : forall j, ring_projector n p j = ring_weight n p j).
  { intros j. unfold ring_projector, ring_weight. destruct p as [|p']; [lia|]. set (p := S p') in *. change (match p with O => 1 / INR n | S _ => ?x end) with x.
    destruct (Nat.even p).
    - replace (2 * PI * INR (p / 2) / INR n * INR j) with (2 * PI * INR (p / 2) * INR j / INR n) by (field; lra). field. lra.
    - replace (2 * PI * INR ((p + 1) / 2) / INR n * INR j) with (2 * PI * INR ((p + 1) / 2) * INR j / INR n) by (field; lra). field. lra. }
  assert (ES : sum_over (seq 0 (length (a :: mol))) (ring_projector n p) = 0) by (rewrite Hl; by apply ring_sum).
  assert (EX : forall v, weighted (ring_projector n p) (a :: mol) v = weighted (ring_weight n p) (a :: mol) v) by (intros v; by apply weighted_ext).
  split.
  - rewrite (rouse_spec b pos u) by done. rewrite ES, EX. destruct (weighted _ _ _) as [x y z]. unfold vadd, vscale. cbn [vx vy vz]. do 2 f_equal; ring.
  - intros d. rewrite <- !EX, weighted_plus, ES. destruct (weighted _ _ _) as [x y z]. unfold vadd, vscale. cbn [vx vy vz]. f_equal; ring.
Qed.

Print Assumptions radius_gyration_correct.
Print Assumptions block_gyration_correct.
Print Assumptions block_pair_correct.
Print Assumptions block_gyration_absent_refuted.
Print Assumptions atom_msd_correct.
Print Assumptions com_msd_single.
Print Assumptions com_msd_refuted.
Print Assumptions linear_rouse_even.
Print Assumptions linear_rouse_odd_refuted.
Print Assumptions ring_rouse_correct.
