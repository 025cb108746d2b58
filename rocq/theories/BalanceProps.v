(** Property C50: the Metropolis rule and detailed balance. *)
From Coq Require Import Reals Lra.
From Coquelicot Require Import Coquelicot.
From stdpp Require Import gmap.
From Verif Require Import Base Vec3 BoxSpec OrthoModel OrthoSpec OrthoProofs OrthoProps MonoModel MonoSpec.
From Verif Require Import McCellModel DomainModel DomainProofs SpeciesModel.
From Verif Require Import CellListModel CellListSpec CellListProofs PairListModel PairListSpec PairListProofs PairListProps.
From Verif Require Import EnergyModel EnergySpec EnergyProofs MoveModel MoveSpec MoveProofs EnergyProps MoveProps BalanceSpec.
Local Open Scope R_scope.

Lemma rmin_cases x : Rmin 1 x = if Rlt_dec 1 x then 1 else x.
Proof. unfold Rmin. destruct (Rle_dec 1 x), (Rlt_dec 1 x); lra. Qed.

(** Random::metropolis accepts with probability min(1, ratio). *)
Theorem metropolis_probability : forall ratio, 0 <= ratio -> prob (metropolis ratio) (Rmin 1 ratio).
Proof.
  intros x Hx. unfold prob, metropolis. rewrite rmin_cases. destruct (Rlt_dec 1 x) as [H|H].
  - assert (scal (1 - 0) 1 = 1 :> R) as E by (unfold scal; cbn; unfold mult; cbn; ring).
    refine (eq_ind _ (is_RInt _ 0 1) _ _ E). apply @is_RInt_const.
  - assert (Hierarchy.plus (scal (x - 0) 1) (scal (1 - x) 0) = x :> R) as E by (unfold Hierarchy.plus, scal; cbn; unfold mult; cbn; ring).
    refine (eq_ind _ (is_RInt _ 0 1) _ _ E). apply (is_RInt_Chasles (V := R_NormedModule) _ 0 x 1 (scal (x - 0) 1) (scal (1 - x) 0)).
    + apply (is_RInt_ext (V := R_NormedModule) (fun _ => 1)); [|apply @is_RInt_const]. intros r. rewrite Rmin_left, Rmax_right by lra. intros Hr.
      destruct (Rlt_dec r x); [done|lra].
    + apply (is_RInt_ext (V := R_NormedModule) (fun _ => 0)); [|apply @is_RInt_const]. intros r. rewrite Rmin_left, Rmax_right by lra. intros Hr.
      destruct (Rlt_dec r x); [lra|done].
Qed.

Lemma balance_min p q : 0 < p -> 0 < q -> p * Rmin 1 (q / p) = q * Rmin 1 (p / q).
Proof.
  intros Hp Hq. assert (p * (q / p) = q) as E1 by (field; lra). assert (q * (p / q) = p) as E2 by (field; lra).
  unfold Rmin. destruct (Rle_dec 1 (q / p)) as [H1|H1], (Rle_dec 1 (p / q)) as [H2|H2]; nra.
Qed.

(** Detailed balance of metropolis(boltzmann(dE) * w'/w), which is how all moves decide, for the distribution with weights
    w exp(-beta E): weight times probability of acceptance is the same in both directions.  For moves without weights, take
    both to be 1. *)
Theorem metropolis_detailed_balance :
  forall beta E1 E2 w1 w2, 0 < w1 -> 0 < w2 ->
  exists p12 p21,
    prob (metropolis (boltzmann beta (E2 - E1) * w2 / w1)) p12 /\ prob (metropolis (boltzmann beta (E1 - E2) * w1 / w2)) p21 /\
    w1 * exp (- beta * E1) * p12 = w2 * exp (- beta * E2) * p21.
Proof.
  intros beta E1 E2 w1 w2 H1 H2. pose proof (exp_pos (- beta * E1)) as P1. pose proof (exp_pos (- beta * E2)) as P2.
  assert (HR : forall e e' w w', 0 < w -> boltzmann beta (e' - e) * w' / w = (w' * exp (- beta * e')) / (w * exp (- beta * e))).
  { intros e e' w w' Hw. unfold boltzmann. replace (- beta * (e' - e)) with (- beta * e' + - (- beta * e)) by ring.
    rewrite exp_plus, exp_Ropp. field. split; [|lra]. pose proof (exp_pos (- beta * e)). lra. }
  assert (HN : forall e e' w w', 0 < w -> 0 < w' -> 0 <= boltzmann beta (e' - e) * w' / w).
  { intros e e' w w' Hw Hw'. rewrite HR by done. apply Rlt_le, Rdiv_lt_0_compat; apply Rmult_lt_0_compat; try done; apply exp_pos. }
  exists (Rmin 1 (boltzmann beta (E2 - E1) * w2 / w1)), (Rmin 1 (boltzmann beta (E1 - E2) * w1 / w2)).
  split; [apply metropolis_probability; auto|]. split; [apply metropolis_probability; auto|].
  rewrite !HR by done. apply balance_min; by apply Rmult_lt_0_compat.
Qed.

Lemma sum_only {T} `{EqDecision T} (l : list T) (y : T) (f : T -> R) : NoDup l -> y ∈ l ->
  sum_over l (fun x => if decide (x = y) then f x else 0) = f y.
Proof.
  intros Hnd Hy. induction l as [|x l IH]; [by apply elem_of_nil in Hy|]. apply NoDup_cons in Hnd as [Hx Hnd]. rewrite sum_cons.
  apply elem_of_cons in Hy as [->|Hy].
  - rewrite decide_True by done. rewrite sum_0; [ring|]. intros z Hz. rewrite decide_False; [done|]. congruence.
  - rewrite IH by done. rewrite decide_False; [ring|]. congruence.
Qed.

Lemma metropolis_symmetric {T} beta (E wt : T -> R) (acc : T -> T -> R) x z : (forall x, 0 < wt x) ->
  (forall x y, prob (metropolis (boltzmann beta (E y - E x) * wt y / wt x)) (acc x y)) ->
  wt x * exp (- beta * E x) * acc x z = wt z * exp (- beta * E z) * acc z x.
Proof.
  intros Hwt Hacc. destruct (metropolis_detailed_balance beta (E x) (E z) (wt x) (wt z) (Hwt x) (Hwt z)) as (p & p' & Hp & Hp' & D).
  assert (acc x z = p) as ->. { pose proof (is_RInt_unique _ _ _ _ (Hacc x z)) as U1. pose proof (is_RInt_unique _ _ _ _ Hp) as U2. congruence. }
  assert (acc z x = p') as ->. { pose proof (is_RInt_unique _ _ _ _ (Hacc z x)) as U1. pose proof (is_RInt_unique _ _ _ _ Hp') as U2. congruence. }
  done.
Qed.

(** A move with symmetric proposals, accepted by the Metropolis rule, leaves the Boltzmann distribution as it is: for
    finitely many states, and for densities on any space. *)
Theorem metropolis_invariant :
  forall (T : Type) (HT : EqDecision T) (states : list T) beta (E wt : T -> R) (q : T -> T -> R) (acc : T -> T -> R),
  NoDup states -> (forall x, 0 < wt x) -> (forall x y, q x y = q y x) ->
  (forall x y, prob (metropolis (boltzmann beta (E y - E x) * wt y / wt x)) (acc x y)) ->
  invariant states (step_prob states q acc) (fun x => wt x * exp (- beta * E x)).
Proof.
  intros T HT S beta E wt q acc Hnd Hwt Hq Hacc y Hy. unfold step_prob. set (pi := fun x => wt x * exp (- beta * E x)).
  assert (DB : forall x z, pi x * acc x z = pi z * acc z x) by (intros; by apply (metropolis_symmetric beta)).
  rewrite (sum_ext _ (fun x => (if decide (x = y) then pi x * (1 - sum_over S (fun z => q x z * acc x z)) else 0) + q x y * (pi x * acc x y))).
  2:{ intros x _. case_decide; unfold pi; ring. }
  rewrite EnergyProofs.sum_plus, sum_only by done.
  rewrite (sum_ext (fun x => q x y * (pi x * acc x y)) (fun x => pi y * (q y x * acc y x))).
  2:{ intros x _. rewrite (DB x y), Hq. ring. }
  rewrite sum_scale. unfold pi. ring.
Qed.
Theorem metropolis_invariant_density :
  forall (T : Type) (Int : (T -> R) -> R -> Prop) beta (E wt : T -> R) (q : T -> T -> R) (acc : T -> T -> R),
  homogeneous Int -> (forall x, 0 < wt x) -> (forall x y, q x y = q y x) ->
  (forall x y, prob (metropolis (boltzmann beta (E y - E x) * wt y / wt x)) (acc x y)) ->
  invariant_density Int q acc (fun x => wt x * exp (- beta * E x)).
Proof.
  intros T Int beta E wt q acc [HI1 HI2] Hwt Hq Hacc y out Hout.
  exists (wt y * exp (- beta * E y) * out). split; [|ring].
  apply (HI1 (fun x => wt y * exp (- beta * E y) * (q y x * acc y x))); [|by apply HI2].
  intros x. pose proof (metropolis_symmetric beta E wt acc x y Hwt Hacc) as D. rewrite (Hq x y).
  transitivity (q y x * (wt y * exp (- beta * E y) * acc y x)); [ring|]. rewrite <- D. ring.
Qed.

(** Displacing an atom back returns it to where it was. *)
Lemma displace_back b p d : a_box b -> in_box b p -> near_cell_of (oBrav b) (vadd p d) ->
  near_cell_of (oBrav b) (vsub (shift1 b (vadd p d)) d) /\ shift1 b (vsub (shift1 b (vadd p d)) d) = p.
Proof.
  intros Hb Hp Hn. pose proof (near_ortho b _ Hb Hn) as Hnear. destruct (owf_a_box b Hb) as (l & lat & W).
  pose proof (w_pos _ _ _ W) as HL. rewrite (w_len _ _ _ W) in Hnear. unfold in_box in Hp. rewrite (w_len _ _ _ W) in Hp.
  assert (HA : forall L x e, 0 < L -> 0 <= x < L -> - L <= x + e < 2 * L ->
    - L <= shift1_axis 0 L L (x + e) - e < 2 * L /\ shift1_axis 0 L L (shift1_axis 0 L L (x + e) - e) = x).
  { intros L x e H0 H1 H2. unfold shift1_axis. repeat (destruct (Rge_dec _ _) || destruct (Rlt_dec _ _)); lra. }
  assert (HS : forall r, shift1 b r = V3 (shift1_axis 0 (vx l) (vx l) (vx r)) (shift1_axis 0 (vy l) (vy l) (vy r)) (shift1_axis 0 (vz l) (vz l) (vz r))).
  { intros r. unfold shift1. rewrite (w_min _ _ _ W), (w_max _ _ _ W), (w_len _ _ _ W). done. }
  destruct p as [x y z], d as [dx dy dz], l as [lx ly lz].
  pose proof (Hp 0%nat ltac:(lia)) as X1. pose proof (Hp 1%nat ltac:(lia)) as X2. pose proof (Hp 2%nat ltac:(lia)) as X3.
  pose proof (Hnear 0%nat ltac:(lia)) as N1. pose proof (Hnear 1%nat ltac:(lia)) as N2. pose proof (Hnear 2%nat ltac:(lia)) as N3.
  pose proof (pos3_get _ 0 HL) as L1. pose proof (pos3_get _ 1 HL) as L2. pose proof (pos3_get _ 2 HL) as L3.
  cbn [vget vx vy vz vadd] in *. rewrite !HS. cbn [vx vy vz vadd vsub] in *.
  destruct (HA lx x dx L1 X1 N1) as [A1 B1]. destruct (HA ly y dy L2 X2 N2) as [A2 B2]. destruct (HA lz z dz L3 X3 N3) as [A3 B3].
  split; [|by rewrite B1, B2, B3]. rewrite (w_brav _ _ _ W). cbn [vx vy vz].
  set (a1 := shift1_axis 0 lx lx (x + dx) - dx) in *. set (a2 := shift1_axis 0 ly ly (y + dy) - dy) in *. set (a3 := shift1_axis 0 lz lz (z + dz) - dz) in *.
  exists (V3 (a1 / lx) (a2 / ly) (a3 / lz)). split.
  - unfold combo, vadd, vsub, vscale, diag. cbn. fold a1 a2 a3. f_equal; field; lra.
  - assert (HD : forall L a, 0 < L -> - L <= a < 2 * L -> -1 <= a / L < 2).
    { intros L a H0 H1. split; [apply Rmult_le_reg_r with L; [done|]|apply Rmult_lt_reg_r with L; [done|]]; unfold Rdiv; rewrite Rmult_assoc, Rinv_l by lra; lra. }
    intros [|[|[|]]] Hi; try lia; cbn [vget vx vy vz]; by apply HD.
Qed.

(** Whether a move was accepted. *)
Definition took (o : outcome (R * mcs * bool)) : bool := match o with Ok (_, _, ok) => ok | _ => false end.

(** C50 for AtomDisplaceMove in an orthorhombic box: let [s] be any configuration and [t] the one with atom [a] displaced by
    [d].  Then displacing [a] by - d takes [t] back to [s], and exp(-beta E) times the probability that the move is accepted
    is the same in both directions.  (The displacements d and - d are drawn with equal density, AtomDisplaceMove.cpp:83-85,
    and the atom is drawn with the same probability.) *)
Theorem atom_displace_detailed_balance :
  forall M cap b masked u cut kinds ext beta n atoms s t a d,
  (2 <= M)%nat -> a_box b -> interaction_ok cut u -> (forall i j, masked i j = masked j i) ->
  grid_of (oLen b) cut n -> NoDup atoms -> Forall (kind_ok atoms) kinds ->
  synced M cap (cartToGen b) (oLen b) cut n atoms s -> synced M cap (cartToGen b) (oLen b) cut n atoms t ->
  a ∈ atoms -> near_cell_of (oBrav b) (vadd (sPos s a) d) ->
  ~ crowded (cartToGen b) n (M - 1) atoms (sPos s) -> ~ crowded (cartToGen b) n (M - 1) atoms (sPos t) ->
  (forall c, sPos t c = if decide (c = a) then shift1 b (vadd (sPos s a) d) else sPos s c) -> (forall c, sTy t c = sTy s c) ->
  let E := total_energy (distanceSq b) masked u kinds ext atoms in
  let move := fun s d r => atom_displace M (cartToGen b) (distanceSq b) (shift1 b) masked u kinds ext beta s a d r in
  let back := vsub (V3 0 0 0) d in
  exists pst pts, prob (fun r => took (move s d r)) pst /\ prob (fun r => took (move t back r)) pts /\
    exp (- beta * E (sPos s) (sTy s)) * pst = exp (- beta * E (sPos t) (sTy t)) * pts /\
    (forall r dE s', move t back r = Ok (dE, s', true) -> forall c, sPos s' c = sPos s c /\ sTy s' c = sTy s c).
Proof.
  intros M cap b masked u cut kinds ext beta n atoms s t a d HM Hb Hi Hm HG Hnd Hk Hs Ht Ha Hnear Hcs Hct HP HT E mv back.
  assert (HB : a_boundary (ortho_bd b)) by (left; eauto).
  assert (Hin : in_box b (sPos s a)).
  { destruct (ortho_transforms_inverse b Hb) as (_ & _ & _ & _ & Hbox). apply Hbox.
    apply (holding_prim M cap HM (cartToGen b) (oLen b) cut n atoms (bf_pos _ (boundary_facts _ HB)) (proj1 Hi) HG _ _ a Hs). done. }
  destruct (displace_back b (sPos s a) d Hb Hin Hnear) as [Nb Eb].
  assert (Et : vadd (sPos t a) back = vsub (shift1 b (vadd (sPos s a) d)) d).
  { rewrite HP, decide_True by done. unfold back, vadd, vsub. cbn [vx vy vz]. f_equal; ring. }
  assert (Ecr : forall p q, (forall c, p c = q c) -> ~ crowded (cartToGen b) n (M - 1) atoms p -> ~ crowded (cartToGen b) n (M - 1) atoms q).
  { intros p q Hpq H (c & ks & K1 & K2 & K3 & K4). apply H. exists c, ks. split_and!; [done|done| |done]. intros x Hx. rewrite Hpq. by apply K3. }
  assert (EE : forall p q ty ty', (forall c, p c = q c) -> (forall c, ty c = ty' c) -> E p ty = E q ty').
  { intros p q ty ty' H1 H2. unfold E, total_energy, pair_energy, bonded_energy, external_energy. f_equal; [f_equal|].
    - apply sum_ext. intros i _. apply sum_ext. intros j _. by rewrite !H1, !H2.
    - apply sum_ext. intros k _. apply sum_ext. intros m _. apply sum_ext. intros g _. f_equal. apply map_ext. done.
    - apply sum_ext. intros i _. by rewrite H1, H2. }
  assert (F1 : forall r, exists s' ok, mv s d r = Ok (E (sPos t) (sTy t) - E (sPos s) (sTy s), s', ok) /\
     ok = metropolis (boltzmann beta (E (sPos t) (sTy t) - E (sPos s) (sTy s))) r).
  { intros r. pose proof (atom_displace_exact M cap (ortho_bd b) masked u cut kinds ext beta n atoms s a d r HM HB Hi Hm HG Hnd Hk Hs Ha Hnear) as H.
    cbv zeta in H. cbn [ortho_bd bGen bDist bWrap bLens] in H. destruct H as (s' & ok & H1 & H2 & _).
    { revert Hct. apply Ecr. done. }
    exists s', ok. unfold mv. rewrite H1, H2.
    rewrite (EE (sPos t) (fun b0 => if decide (b0 = a) then shift1 b (vadd (sPos s a) d) else sPos s b0) (sTy t) (sTy s) HP HT). done. }
  assert (F2 : forall r, exists s' ok, mv t back r = Ok (E (sPos s) (sTy s) - E (sPos t) (sTy t), s', ok) /\
     ok = metropolis (boltzmann beta (E (sPos s) (sTy s) - E (sPos t) (sTy t))) r /\
     (ok = true -> forall c, sPos s' c = sPos s c /\ sTy s' c = sTy s c)).
  { intros r. assert (HPb : forall c, (if decide (c = a) then shift1 b (vadd (sPos t a) back) else sPos t c) = sPos s c).
    { intros c. case_decide as Hc; [subst; by rewrite Et, Eb|]. rewrite HP. by rewrite decide_False. }
    pose proof (atom_displace_exact M cap (ortho_bd b) masked u cut kinds ext beta n atoms t a back r HM HB Hi Hm HG Hnd Hk Ht Ha) as H.
    cbv zeta in H. cbn [ortho_bd bGen bDist bWrap bLens bBrav] in H. destruct H as (s' & ok & H1 & H2 & H3).
    { by rewrite Et. }
    { revert Hcs. apply Ecr. done. }
    fold E in H1, H2.
    rewrite (EE (fun b0 => if decide (b0 = a) then shift1 b (vadd (sPos t a) back) else sPos t b0) (sPos s) (sTy t) (sTy s) HPb HT) in H1, H2.
    exists s', ok. split; [exact H1|]. split; [exact H2|]. intros ->. destruct H3 as (H3 & H4 & _). intros c. rewrite H3, H4. split; [apply HPb|apply HT]. }
  destruct (metropolis_detailed_balance beta (E (sPos s) (sTy s)) (E (sPos t) (sTy t)) 1 1 ltac:(lra) ltac:(lra)) as (p & q & Hp & Hq & D).
  exists p, q. split_and!.
  - unfold prob. eapply is_RInt_ext; [|exact Hp]. intros r _. cbn beta. destruct (F1 r) as (s' & ok & -> & ->). cbn [took].
    replace (boltzmann beta (E (sPos t) (sTy t) - E (sPos s) (sTy s)) * 1 / 1) with (boltzmann beta (E (sPos t) (sTy t) - E (sPos s) (sTy s))) by field. done.
  - unfold prob. eapply is_RInt_ext; [|exact Hq]. intros r _. cbn beta. destruct (F2 r) as (s' & ok & -> & -> & _). cbn [took].
    replace (boltzmann beta (E (sPos s) (sTy s) - E (sPos t) (sTy t)) * 1 / 1) with (boltzmann beta (E (sPos s) (sTy s) - E (sPos t) (sTy t))) by field. done.
  - lra.
  - intros r dE s' H. destruct (F2 r) as (s2 & ok & H1 & _ & H3). rewrite H1 in H. injection H as _ <- ->. by apply H3.
Qed.

(** The hypotheses can be met: in the configuration of [displace_example], atom 1 moves through a face of the box. *)
Example balance_example :
  exists s t, synced 61 4 (cartToGen ex_box) (oLen ex_box) 1 (V3 10 10 10)%Z ex_atoms s /\
    synced 61 4 (cartToGen ex_box) (oLen ex_box) 1 (V3 10 10 10)%Z ex_atoms t /\
    near_cell_of (oBrav ex_box) (vadd (sPos s 1%nat) (V3 1 0 0)) /\
    (forall pos, ~ crowded (cartToGen ex_box) (V3 10 10 10)%Z (61 - 1) ex_atoms pos) /\
    (forall c, sPos t c = if decide (c = 1%nat) then shift1 ex_box (vadd (sPos s 1%nat) (V3 1 0 0)) else sPos s c) /\
    (forall c, sTy t c = sTy s c) /\ sPos t 1%nat <> sPos s 1%nat.
Proof.
  destruct displace_example as (s & Hs & Hk & Hm & Hn & Es & Hc & _). exists s.
  assert (HB : a_boundary (ortho_bd ex_box)) by (left; exists ex_box; split; [apply ex_a_box|done]).
  assert (Hmet : forall e, metropolis (boltzmann 0 e) 0 = true).
  { intros e. unfold metropolis, boltzmann. rewrite Ropp_0, Rmult_0_l, exp_0. destruct (Rlt_dec 1 1); [done|]. destruct (Rlt_dec 0 1); [done|lra]. }
  destruct (atom_displace_exact 61 4 (ortho_bd ex_box) ex_mask2 ex_u 1 [] None 0 (V3 10 10 10)%Z ex_atoms s 1%nat (V3 1 0 0) 0)
    as (t & ok & _ & Hok & Ht); [lia|done|apply ex_ix|done|apply ex_grid10|apply ex_nodup|constructor|done|
    unfold ex_atoms; rewrite !elem_of_cons; tauto|done|apply Hc|].
  rewrite Hmet in Hok. subst ok. destruct Ht as (T1 & T2 & T3). exists t. split_and!; try done.
  rewrite T1, decide_True by done. cbn [ortho_bd bWrap]. rewrite Es. intros E.
  assert (vx (vadd (sPos s 1%nat) (V3 1 0 0)) = 8/5) as E1 by (rewrite <- E; cbn; lra).
  destruct ex_wf as [lat W]. unfold shift1 in Es. rewrite (w_min _ _ _ W), (w_max _ _ _ W), (w_len _ _ _ W) in Es.
  apply (f_equal vx) in Es. cbn [vx vget] in Es. rewrite E1 in Es. unfold shift1_axis in Es. cbn in Es.
  destruct (Rge_dec _ _); [lra|]. destruct (Rlt_dec _ _); lra.
Qed.

(** Two states with energies 0 and 1, each proposed from the other with probability 1. *)
Example invariant_example :
  invariant [false; true] (step_prob [false; true] (fun x y => if decide (x = y) then 0 else 1)
    (fun x y => Rmin 1 (boltzmann 1 ((if y then 1 else 0) - (if x then 1 else 0)) * 1 / 1)))
    (fun x => 1 * exp (- (1) * (if x : bool then 1 else 0))).
Proof.
  apply metropolis_invariant.
  - apply (bool_decide_eq_true_1 (NoDup _)). reflexivity.
  - intros; lra.
  - intros x y. repeat case_decide; congruence.
  - intros x y. apply metropolis_probability. unfold boltzmann. pose proof (exp_pos (- (1) * ((if y then 1 else 0) - (if x then 1 else 0)))). lra.
Qed.

(** The integral over an interval can serve. *)
Example density_example : homogeneous (fun (f : R -> R) a => is_RInt f 0 1 a).
Proof.
  split.
  - intros f g a H. apply (is_RInt_ext (V := R_NormedModule)). intros; apply H.
  - intros c f a H. apply (is_RInt_scal (V := R_NormedModule) f 0 1 c a H).
Qed.

Print Assumptions metropolis_probability.
Print Assumptions metropolis_detailed_balance.
Print Assumptions metropolis_invariant.
Print Assumptions metropolis_invariant_density.
Print Assumptions atom_displace_detailed_balance.
