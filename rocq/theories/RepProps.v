(** Property C105: perturbations and replica exchange. *)
From Coq Require Import Reals Lra.
From Coquelicot Require Import Coquelicot.
From stdpp Require Import gmap.
From Verif Require Import Base Vec3 BoxSpec OrthoModel OrthoSpec OrthoProofs OrthoProps MonoModel MonoSpec.
From Verif Require Import McCellModel DomainModel DomainProofs SpeciesModel.
From Verif Require Import CellListModel CellListSpec CellListProofs PairListModel PairListSpec PairListProofs PairListProps.
From Verif Require Import EnergyModel EnergySpec EnergyProofs MoveModel MoveSpec MoveProofs EnergyProps MoveProps BalanceSpec BalanceProps.
From Verif Require Import RepModel RepSpec RepPerm.
From Coq Require Import Reals Lra.
Local Open Scope R_scope.

(** * Derivatives *)
Lemma foldM_same {A B} (F G : B -> A -> outcome B) l : (forall e x, F e x = G e x) -> forall e, foldM F e l = foldM G e l.
Proof. intros H. induction l as [|x l IH]; intros e; cbn [foldM]; [done|]. rewrite H. destruct (G e x); cbn [obind]; auto. Qed.
Lemma fold_same {A B} (F G : B -> A -> B) l : (forall e x, F e x = G e x) -> forall e, fold_left F l e = fold_left G l e.
Proof. intros H. induction l as [|x l IH]; intros e; cbn [fold_left]; [done|]. rewrite H. apply IH. Qed.
Definition other_types (u : R -> Z -> Z -> R) (r : R) (t1 t2 : Z) : R := if decide (t1 = t2) then 0 else u r t1 t2.
Lemma pert_total M dist2 masked u s : pert_pairs M dist2 masked u s = pair_total M dist2 masked (other_types u) s.
Proof.
  unfold pert_pairs, pair_total. apply foldM_same. intros e ic. destruct (cell_neighbors M (sCells s) ic) as [[nb nIn]| |]; cbn [obind]; [|done|done].
  apply foldM_same. intros e' ip. destruct (aget nb ip) as [j| |]; cbn [obind]; [|done|done]. f_equal. apply fold_same. intros e'' k.
  destruct (decide (j < k)%nat); [|done]. unfold pair_u, other_types. destruct (decide (sTy s j = sTy s k)); [|done]. destruct (masked j k); [done|]. ring.
Qed.
Lemma pair_total_synced M cap B masked u cut n atoms s : (2 <= M)%nat -> a_boundary B -> interaction_ok cut u -> grid_of (bLens B) cut n -> NoDup atoms ->
  synced M cap (bGen B) (bLens B) cut n atoms s -> pair_total M (bDist B) masked u s = Ok (pair_energy (bDist B) masked u atoms (sPos s) (sTy s)).
Proof.
  intros HM HB (Hc & Hcut & Hu) HG Hnd Hs. pose proof (boundary_facts B HB) as F. pose proof (boundary_adj B cut n HB Hc HG) as Hadj.
  pose proof (sys_total_eq M cap HM (bGen B) (bDist B) (bLens B) n masked u cut [] None atoms Hnd (bf_pos B F) Hc HG Hadj Hcut s Hs) as E.
  unfold sys_total in E. destruct (pair_total M (bDist B) masked u s) as [e| |]; cbn [obind] in E; [|done|done]. injection E as E. f_equal.
  assert (E0 : ext_total None atoms s = 0). { unfold ext_total, ext_atom. rewrite fold_sum, Rplus_0_l. by apply sum_0. }
  assert (E1 : external_energy None atoms (sPos s) (sTy s) = 0) by (by apply sum_0).
  unfold total_energy in E. rewrite E0, E1, sum_nil in E. cbn [fold_left] in E. lra.
Qed.
Lemma pair_linear dist2 masked atoms pos ty (f f1 f2 : R -> Z -> Z -> R) a :
  (forall i j r, i ∈ atoms -> j ∈ atoms -> f r (ty i) (ty j) = a * f1 r (ty i) (ty j) + f2 r (ty i) (ty j)) ->
  pair_energy dist2 masked f atoms pos ty = a * pair_energy dist2 masked f1 atoms pos ty + pair_energy dist2 masked f2 atoms pos ty.
Proof.
  intros H. unfold pair_energy. rewrite <- sum_scale, <- EnergyProofs.sum_plus. apply sum_ext. intros i Hi. rewrite <- sum_scale, <- EnergyProofs.sum_plus. apply sum_ext. intros j Hj.
  destruct (decide (i < j)%nat); [|ring]. destruct (masked i j); [ring|]. by apply H.
Qed.
Lemma set_ok x : unset x x = false.
Proof. unfold unset. destruct (Rlt_dec _ _) as [H|]; [exfalso|done]. rewrite Rminus_diag_eq, Rabs_R0 in H by done. lra. Qed.

(** C105, pairs.  If the energy of unlike pairs is proportional to epsilon(0,1) and there are only atoms of types 0 and 1, derivative() of
    McPairPerturbation is the derivative of the Boltzmann exponent with respect to epsilon(0,1), so that LinearPerturbation's differences are exact: in every
    configuration, for every other value of epsilon(0,1) and whatever the other potentials. *)
Theorem pair_derivative_correct :
  forall M cap B masked u cut n atoms s beta eps,
  (2 <= M)%nat -> a_boundary B -> linear_in_eps u -> interaction_ok cut (u eps) -> grid_of (bLens B) cut n -> NoDup atoms ->
  synced M cap (bGen B) (bLens B) cut n atoms s -> (forall a, a ∈ atoms -> sTy s a = 0 \/ sTy s a = 1)%Z -> eps <> 0 ->
  exists d, pair_derivative M (bDist B) masked (u eps) (Some beta) eps eps s = Ok d /\
    forall kinds ext eps', beta * total_energy (bDist B) masked (u eps') kinds ext atoms (sPos s) (sTy s) -
      beta * total_energy (bDist B) masked (u eps) kinds ext atoms (sPos s) (sTy s) = difference [eps'] [eps] [d].
Proof.
  intros M cap B masked u cut n atoms s beta eps HM HB (v & w & Hu) Hi HG Hnd Hs Hty He.
  assert (Hi' : interaction_ok cut (other_types (u eps))).
  { destruct Hi as (H1 & H2 & H3). split; [done|]. unfold other_types. split; intros r t1 t2; [intros Hr; case_decide; [done|by apply H2]|]. repeat case_decide; try done; by (exfalso; congruence). }
  unfold pair_derivative. rewrite set_ok, pert_total, (pair_total_synced M cap B masked _ cut n atoms s HM HB Hi' HG Hnd Hs). cbn [obind]. eexists. split; [done|].
  intros kinds ext eps'. unfold total_energy, difference. cbn [zip zip_with fold_left fst snd].
  set (v' := fun r (t1 t2 : Z) => if decide (t1 = t2) then 0 else v r t1 t2). set (w' := fun r (t1 t2 : Z) => if decide (t1 = t2) then w r t1 t2 else 0).
  assert (U : forall e i j r, i ∈ atoms -> j ∈ atoms -> u e r (sTy s i) (sTy s j) = e * v' r (sTy s i) (sTy s j) + w' r (sTy s i) (sTy s j)).
  { intros e i j r Hia Hja. destruct (Hu e r (sTy s i) (sTy s j)) as [U1 U2]. unfold v', w'. specialize (Hty i Hia) as Ti. specialize (Hty j Hja) as Tj. case_decide as E.
    - rewrite U2; [ring|]. unfold unlike. lia.
    - rewrite U1; [ring|]. unfold unlike. lia. }
  rewrite (pair_linear _ masked atoms (sPos s) (sTy s) (u eps') v' w' eps' (U eps')), (pair_linear _ masked atoms (sPos s) (sTy s) (u eps) v' w' eps (U eps)).
  rewrite (pair_linear _ masked atoms (sPos s) (sTy s) (other_types (u eps)) v' no_u eps).
  - rewrite no_pair. field. done.
  - intros i j r Hia Hja. unfold other_types, no_u. rewrite (U eps i j r Hia Hja). unfold v', w'. case_decide; ring.
Qed.
(** The same for the external potential, McExternalPerturbation. *)
Theorem external_derivative_correct :
  forall dist2 masked u (f : vec3 R -> Z -> R) atoms s beta lam, lam <> 0 ->
  exists d, external_derivative (fun p t => lam * f p t) atoms (Some beta) lam lam s = Ok d /\
    forall kinds lam', beta * total_energy dist2 masked u kinds (Some (fun p t => lam' * f p t)) atoms (sPos s) (sTy s) -
      beta * total_energy dist2 masked u kinds (Some (fun p t => lam * f p t)) atoms (sPos s) (sTy s) = difference [lam'] [lam] [d].
Proof.
  intros dist2 masked u f atoms s beta lam Hl. unfold external_derivative. rewrite set_ok. eexists. split; [done|]. intros kinds lam'. unfold total_energy, difference, external_energy. cbn [zip zip_with fold_left fst snd].
  rewrite fold_sum, Rplus_0_l, !sum_scale. field. done.
Qed.
(** McPairExternalPerturbation returns the negative of it for the external parameter: the difference has the wrong sign, in every configuration. *)
Theorem pair_external_sign_refuted :
  (forall dist2 masked u (f : vec3 R -> Z -> R) atoms s beta lam, lam <> 0 ->
    exists d, pair_external_derivative1 (fun p t => lam * f p t) atoms (Some beta) lam lam s = Ok d /\
      forall kinds lam', beta * total_energy dist2 masked u kinds (Some (fun p t => lam' * f p t)) atoms (sPos s) (sTy s) -
        beta * total_energy dist2 masked u kinds (Some (fun p t => lam * f p t)) atoms (sPos s) (sTy s) = - difference [lam'] [lam] [d]) /\
  exists f atoms s d, pair_external_derivative1 (fun p t => 1 * f p t) atoms (Some 1) 1 1 s = Ok d /\ difference [2] [1] [d] = -1 /\
    1 * total_energy (fun _ _ => 0) (fun _ _ => false) no_u [] (Some (fun p t => 2 * f p t)) atoms (sPos s) (sTy s) -
    1 * total_energy (fun _ _ => 0) (fun _ _ => false) no_u [] (Some (fun p t => 1 * f p t)) atoms (sPos s) (sTy s) = 1.
Proof.
  split.
  - intros dist2 masked u f atoms s beta lam Hl. unfold pair_external_derivative1. rewrite set_ok. eexists. split; [done|]. intros kinds lam'. unfold total_energy, difference, external_energy. cbn [zip zip_with fold_left fst snd].
    rewrite fold_sum, Rplus_0_l, !sum_scale. field. done.
  - exists (fun _ _ => 1), [0%nat], (MC (fun _ => V3 0 0 0) (fun _ => 0%Z) (cl_new 1)). unfold pair_external_derivative1. rewrite set_ok. eexists. split; [done|].
    unfold total_energy, external_energy, difference. rewrite !no_pair, !sum_nil, !sum_cons, !sum_nil. cbn [zip zip_with fold_left fst snd]. split; field.
Qed.
(** For the temperature: parameter() is the inverse temperature that was set, and derivative() the potential energy. *)
Theorem energy_parameter_correct : forall beta beta' E, beta <> 0 -> energy_parameter beta = beta /\ beta' * E - beta * E = difference [beta'] [energy_parameter beta] [E].
Proof.
  intros beta beta' E Hb. assert (Ep : energy_parameter beta = beta) by (unfold energy_parameter; field; done). split; [done|]. rewrite Ep. unfold difference. cbn [zip zip_with fold_left fst snd]. ring.
Qed.
(** Mode 1: equal steps from the first to the last rank. *)
Theorem ladder_correct : forall size ini fin j, (2 <= size)%nat -> (j < size)%nat -> ladder size ini fin j = ini + INR j / INR (size - 1) * (fin - ini).
Proof.
  intros size ini fin j Hs Hj. unfold ladder. assert (H : INR (size - 1) <> 0) by (apply not_0_INR; lia). destruct (Nat.eqb_spec j (size - 1)) as [-> |H1]; [field; done|].
  destruct (Nat.eqb_spec j 0) as [-> |H2]; [cbn [INR]; field; done|]. field. done.
Qed.

(** * Permutations *)
(** The two draws give every ordered pair of different ranks from exactly one pair of draws. *)
Theorem pair_choice :
  forall n i, (i < n)%nat ->
  (forall j0, (S j0 < n)%nat -> (partner i j0 < n)%nat /\ partner i j0 <> i) /\
  (forall j, (j < n)%nat -> j <> i -> exists! j0, (S j0 < n)%nat /\ partner i j0 = j).
Proof.
  intros n i Hi. split; [intros j0 Hj; by apply partner_spec|]. intros j Hj Hne. exists (if Nat.ltb i j then j - 1 else j)%nat. unfold partner. split.
  - destruct (Nat.ltb_spec i j); [destruct (Nat.leb_spec i (j - 1)); lia|destruct (Nat.leb_spec i j); lia].
  - intros j0 [H1 H2]. destruct (Nat.ltb_spec i j), (Nat.leb_spec i j0); lia.
Qed.
(** Whatever the draws, the result is a permutation of the ranks. *)
Theorem sample_permutation_correct :
  forall nP D P n draws, Forall (fun t => (t.1.1 < n)%nat /\ (S t.1.2 < n)%nat) draws ->
  exists perm, sample_permutation nP D P n draws = Ok perm /\ perm ≡ₚ seq 0 n.
Proof.
  intros nP D P n draws H. destruct (sample_bij nP D P n draws H (seq 0 n)) as (perm & E & HB); [by apply bij_iff|]. exists perm. split; [done|]. by apply bij_iff.
Qed.
(** With one processor uniformInt(0, 1) and uniformInt(0, 0) return 0, and the code reads past the end of its arrays. *)
Theorem sample_one_refuted : forall nP D P r draws, sample_permutation nP D P 1 ((0%nat, 0%nat, r) :: draws) = UB.
Proof. done. Qed.
(** The weight of a swap is the change of the joint Boltzmann exponent, and swaps are in detailed balance with respect to the joint distribution of the
    assignments: from each of the two assignments the same draws lead to the other, with probabilities in inverse proportion to the Boltzmann factors. *)
Theorem swap_balance :
  forall nP D P n perm i j0, perm ≡ₚ seq 0 n -> (i < n)%nat -> (S j0 < n)%nat ->
  exists perm' (acc acc' : R -> bool) (p p' : R), perm' ≡ₚ seq 0 n /\ perm' <> perm /\
    (forall r, swap_step nP D P perm (i, j0, r) = Ok (if acc r then perm' else perm)) /\
    (forall r, swap_step nP D P perm' (i, j0, r) = Ok (if acc' r then perm else perm')) /\
    prob acc p /\ prob acc' p' /\ 0 < p <= 1 /\ 0 < p' <= 1 /\
    exp (- exponent nP D P n (fun c => default 0%nat (perm !! c))) * p = exp (- exponent nP D P n (fun c => default 0%nat (perm' !! c))) * p'.
Proof.
  intros nP D P n perm i j0 HB%bij_iff Hi Hj. destruct (step_value nP D P n perm i j0 0 HB Hi Hj) as (pi & pj & E1 & E2 & _). destruct (partner_spec n i j0 Hi Hj) as [Hp Hne]. set (j := partner i j0) in *.
  assert (HB' : bij n (swapped perm i j pi pj)) by (apply swapped_bij; done). set (perm' := swapped perm i j pi pj) in *. set (w := swap_weight nP D P i j pi pj).
  assert (L1 : perm' !! i = Some pj) by (unfold perm'; rewrite swapped_lookup by done; by rewrite decide_True).
  assert (L2 : perm' !! j = Some pi) by (unfold perm'; rewrite swapped_lookup by done; rewrite decide_False by done; by rewrite decide_True).
  assert (BACK : swapped perm' i j pj pi = perm) by (apply swapped_back; done).
  set (H1 := exponent nP D P n (assigned perm)). set (H2 := exponent nP D P n (assigned perm')).
  assert (W1 : H2 - H1 = w) by (apply exponent_swap; done).
  assert (W2 : H1 - H2 = swap_weight nP D P i j pj pi). { unfold H1. rewrite <- BACK. apply exponent_swap; done. }
  exists perm', (metropolis (exp (- w))), (metropolis (exp (- swap_weight nP D P i j pj pi))), (Rmin 1 (exp (- w))), (Rmin 1 (exp (- swap_weight nP D P i j pj pi))).
  split; [by apply bij_iff|]. split; [intros E; rewrite E, E1 in L1; injection L1 as ->; apply Hne; destruct HB as (_ & ND & _); eapply NoDup_lookup; eauto|].
  split. { intros r. destruct (step_value nP D P n perm i j0 r HB Hi Hj) as (a & b & A & B & ->). fold j in B |- *. rewrite E1 in A. rewrite E2 in B. injection A as <-. injection B as <-. done. }
  split. { intros r. destruct (step_value nP D P n perm' i j0 r HB' Hi Hj) as (a & b & A & B & ->). fold j in B |- *. rewrite L1 in A. rewrite L2 in B. injection A as <-. injection B as <-. by rewrite BACK. }
  assert (X1 := exp_pos (- w)). assert (X2 := exp_pos (- swap_weight nP D P i j pj pi)).
  split; [apply metropolis_probability; lra|]. split; [apply metropolis_probability; lra|].
  split; [split; [apply Rmin_glb_lt; lra|apply Rmin_l]|]. split; [split; [apply Rmin_glb_lt; lra|apply Rmin_l]|].
  change (exp (- H1) * Rmin 1 (exp (- w)) = exp (- H2) * Rmin 1 (exp (- swap_weight nP D P i j pj pi))). rewrite <- W2, <- W1.
  rewrite !Rmult_min_distr_l by (apply Rlt_le, exp_pos). rewrite !Rmult_1_r, <- !exp_plus. replace (- H1 + - (H2 - H1)) with (- H2) by ring. replace (- H2 + - (H1 - H2)) with (- H1) by ring. apply Rmin_comm.
Qed.

(** * Exchange *)
(** If messages are buffered, each rank r receives the configuration of the rank i with permutation[i] = r, each configuration goes to one rank, and the joint
    exponent of the ranks afterwards is that of the sampled assignment. *)
Theorem exchange_correct :
  forall (C : Type) n perm (x : nat -> C), perm ≡ₚ seq 0 n ->
  (forall r, (r < n)%nat -> exists! i, perm !! i = Some r) /\
  (forall i r, perm !! i = Some r -> exchanged perm x r = Some (x i)) /\
  forall nP (deriv : C -> nat -> R) P (y : nat -> C), (forall r, (r < n)%nat -> exchanged perm x r = Some (y r)) ->
    sum_over (seq 0 n) (fun r => sum_over (seq 0 nP) (fun k => P r k * deriv (y r) k)) = exponent nP (fun c => deriv (x c)) P n (fun c => default 0%nat (perm !! c)).
Proof.
  intros C n perm x HB%bij_iff. split; [|split].
  - intros r Hr. destruct (bij_of n perm r HB Hr) as (i & Hi & _). exists i. split; [done|]. intros i' Hi'. destruct HB as (_ & ND & _). eapply NoDup_lookup; eauto.
  - intros i r Hi. by eapply exchanged_eq.
  - intros nP deriv P y Hy. rewrite (sum_perm _ (seq 0 n) perm) by (symmetry; by apply bij_iff). rewrite sum_index. destruct HB as (HL & ND & HR). rewrite HL. unfold exponent. apply sum_ext.
    intros i Hi. apply elem_of_list_In, in_seq in Hi. destruct (lookup_lt_is_Some_2 perm i) as [r Hr]; [lia|]. rewrite Hr. cbn [default]. apply sum_ext. intros k _.
    assert (Hrn : (r < n)%nat) by (apply HR; by eapply elem_of_list_lookup_2). specialize (Hy r Hrn). rewrite (exchanged_eq n perm x r i (conj HL (conj ND HR)) Hr) in Hy. injection Hy as ->. done.
Qed.
(** If messages are not buffered, which MPI leaves open, rank 0 and its partner wait for each other for ever whenever there is anything to exchange: the
    messages all get through only for the identity. *)
Theorem unbuffered_refuted :
  forall n perm, perm ≡ₚ seq 0 n -> (rendezvous (sends perm) (fun _ => 0%nat) = true <-> perm = seq 0 n).
Proof.
  intros n perm HB%bij_iff. split; [|intros ->; apply identity_ok]. intros H. apply none_ahead; [done|]. intros i r Hi. destruct (decide (r <= i)%nat) as [|Hn]; [done|].
  rewrite (ahead_stuck n perm i r HB Hi) in H by lia. done.
Qed.

(** * Examples *)
Definition rep_u (eps r : R) (t1 t2 : Z) : R := (if decide (unlike t1 t2) then eps else 1) * (if Rlt_dec r 1 then 1 - r else 0).
Lemma rep_linear : linear_in_eps rep_u.
Proof. exists (fun r _ _ => if Rlt_dec r 1 then 1 - r else 0), (fun r _ _ => if Rlt_dec r 1 then 1 - r else 0). intros eps r t1 t2. unfold rep_u. split; intros H; case_decide; try done; ring. Qed.
Lemma rep_ix eps : interaction_ok 1 (rep_u eps).
Proof.
  split; [lra|]. split; intros r t1 t2; [intros Hr; unfold rep_u; destruct (Rlt_dec r 1); [lra|ring]|]. unfold rep_u. f_equal. assert (unlike t1 t2 <-> unlike t2 t1) by (unfold unlike; lia).
  repeat case_decide; tauto.
Qed.
Definition rep_mask (i j : nat) : bool := negb (bool_decide ((i = 0%nat /\ j = 1%nat) \/ (i = 1%nat /\ j = 0%nat))).
Lemma rep_pair u s : (forall a, a ∈ ex_atoms -> sPos s a = ex_in a) -> pair_energy (distanceSq ex_box) rep_mask u ex_atoms (sPos s) (sTy s) = u (9/25) (sTy s 0%nat) (sTy s 1%nat).
Proof.
  intros HP. assert (P0 : sPos s 0%nat = V3 (1/5) 1 1) by (rewrite HP by (unfold ex_atoms; rewrite !elem_of_cons; tauto); done).
  assert (P1 : sPos s 1%nat = V3 (48/5) 1 1) by (rewrite HP by (unfold ex_atoms; rewrite !elem_of_cons; tauto); done).
  assert (D01 : distanceSq ex_box (sPos s 0%nat) (sPos s 1%nat) = 9/25).
  { rewrite (ex_dist _ _ _ _ _ _ _ _ P0 P1). rewrite (sep_lo 10 (1/5)) by (try lra; rewrite Rabs_left by lra; lra). rewrite !sep_in by (apply Rabs_le; lra). cbn [fst]. lra. }
  unfold pair_energy, ex_atoms. rewrite !sum_cons, !sum_nil. rewrite <- D01. unfold rep_mask.
  repeat (case_decide; try (exfalso; lia)). repeat (case_bool_decide; try (exfalso; lia)). cbn [negb]. ring.
Qed.
(** With atoms of a third type the loop also adds the energies of their pairs with other types, which do not depend on epsilon(0,1): the derivative is wrong. *)
Theorem pair_derivative_types_refuted :
  exists M cap B masked u cut n atoms s beta eps d,
  (2 <= M)%nat /\ a_boundary B /\ linear_in_eps u /\ interaction_ok cut (u eps) /\ grid_of (bLens B) cut n /\ NoDup atoms /\
  synced M cap (bGen B) (bLens B) cut n atoms s /\ eps <> 0 /\ pair_derivative M (bDist B) masked (u eps) (Some beta) eps eps s = Ok d /\
  exists eps', beta * total_energy (bDist B) masked (u eps') [] None atoms (sPos s) (sTy s) -
      beta * total_energy (bDist B) masked (u eps) [] None atoms (sPos s) (sTy s) <> difference [eps'] [eps] [d].
Proof.
  destruct (ex_built (fun a => if decide (a = 1)%nat then 2 else 0)%Z) as (s & Hs & HP & HT). destruct mc_energy_example as (HB & _ & HG & _).
  exists 61%nat, 4%nat, (ortho_bd ex_box), rep_mask, rep_u, 1, (V3 10 10 10)%Z, ex_atoms, s, 1, 1.
  assert (Hi' : interaction_ok 1 (other_types (rep_u 1))).
  { destruct (rep_ix 1) as (H1 & H2 & H3). split; [done|]. unfold other_types. split; intros r t1 t2; [intros Hr; case_decide; [done|by apply H2]|]. repeat case_decide; try done; by (exfalso; congruence). }
  unfold pair_derivative. rewrite set_ok, pert_total, (pair_total_synced 61 4 (ortho_bd ex_box) rep_mask _ 1 (V3 10 10 10)%Z ex_atoms s ltac:(lia) HB Hi' HG ex_nodup Hs). cbn [obind].
  eexists. split; [lia|]. split; [done|]. split; [apply rep_linear|]. split; [apply rep_ix|]. split; [done|]. split; [apply ex_nodup|]. split; [done|]. split; [lra|]. split; [done|].
  exists 2. unfold total_energy. cbn [ortho_bd bDist]. rewrite !rep_pair by done. rewrite !HT. unfold rep_u, other_types, difference, unlike. cbn [zip zip_with fold_left fst snd].
  rewrite (decide_False (P := (0%nat = 1%nat))), (decide_True (P := (1%nat = 1%nat))) by done. rewrite !decide_False by lia. destruct (Rlt_dec (9/25) 1); lra.
Qed.
Example pair_derivative_example :
  exists s d, synced 61 4 (cartToGen ex_box) (oLen ex_box) 1 (V3 10 10 10)%Z ex_atoms s /\ (forall a, a ∈ ex_atoms -> sTy s a = 0 \/ sTy s a = 1)%Z /\ linear_in_eps rep_u /\
    interaction_ok 1 (rep_u 3) /\ pair_derivative 61 (distanceSq ex_box) rep_mask (rep_u 3) (Some 2) 3 3 s = Ok d /\ d = 32/25.
Proof.
  destruct (ex_built (fun a => if decide (a = 1)%nat then 1 else 0)%Z) as (s & Hs & HP & HT). destruct mc_energy_example as (HB & _ & HG & _).
  assert (Hi' : interaction_ok 1 (other_types (rep_u 3))).
  { destruct (rep_ix 3) as (H1 & H2 & H3). split; [done|]. unfold other_types. split; intros r t1 t2; [intros Hr; case_decide; [done|by apply H2]|]. repeat case_decide; try done; by (exfalso; congruence). }
  pose proof (pair_total_synced 61 4 (ortho_bd ex_box) rep_mask _ 1 (V3 10 10 10)%Z ex_atoms s ltac:(lia) HB Hi' HG ex_nodup Hs) as E. cbn [ortho_bd bDist] in E.
  unfold pair_derivative. exists s. rewrite set_ok, pert_total, E. cbn [obind]. eexists. split; [done|]. split; [intros a _; rewrite HT; case_decide; lia|]. split; [apply rep_linear|]. split; [apply rep_ix|]. split; [done|].
  rewrite rep_pair by done. rewrite !HT. unfold rep_u, other_types, unlike. rewrite (decide_False (P := (0%nat = 1%nat))), (decide_True (P := (1%nat = 1%nat))) by done. rewrite decide_False by lia. rewrite decide_True by lia.
  destruct (Rlt_dec (9/25) 1); lra.
Qed.
(** Three ranks: a cycle, sampled by two swaps, delivered with buffers, stuck without. *)
Example replica_example :
  exists perm, sample_permutation 1 (fun _ _ => 0) (fun i _ => INR i) 3 [(0%nat, 0%nat, 1/2); (1%nat, 1%nat, 1/2)] = Ok perm /\ perm = [1; 2; 0]%nat /\ perm ≡ₚ seq 0 3 /\
    map (exchanged perm (fun i => i)) [0; 1; 2]%nat = [Some 2; Some 0; Some 1]%nat /\ rendezvous (sends perm) (fun _ => 0%nat) = false.
Proof.
  assert (Hm : forall i j a b, metropolis (exp (- swap_weight 1 (fun _ _ => 0) (fun i _ => INR i) i j a b)) (1/2) = true).
  { intros i j a b. unfold swap_weight, metropolis. cbn [seq fold_left]. replace (- (0 + (INR b - INR a) * (0 - 0))) with 0 by ring. rewrite exp_0. destruct (Rlt_dec 1 1); [done|]. destruct (Rlt_dec (1/2) 1); [done|lra]. }
  exists [1; 2; 0]%nat. split.
  - unfold sample_permutation. cbn [foldM seq]. unfold swap_step at 1. cbn [partner Nat.leb aget lookup list_lookup obind]. rewrite Hm. cbn [obind]. unfold aset. cbn [length]. rewrite decide_True by lia. cbn [obind insert list_insert length].
    rewrite decide_True by lia. cbn [obind insert list_insert]. unfold swap_step. cbn [partner Nat.leb aget lookup list_lookup obind]. rewrite Hm. unfold aset. cbn [length]. rewrite decide_True by lia. cbn [obind insert list_insert length].
    rewrite decide_True by lia. reflexivity.
  - split; [done|]. split; [|split; reflexivity]. apply bij_iff. split; [done|]. split; [apply (bool_decide_eq_true_1 (NoDup _)); reflexivity|]. intros x. rewrite !elem_of_cons, elem_of_nil. lia.
Qed.

Print Assumptions pair_derivative_correct.
Print Assumptions external_derivative_correct.
Print Assumptions pair_external_sign_refuted.
Print Assumptions pair_derivative_types_refuted.
Print Assumptions energy_parameter_correct.
Print Assumptions ladder_correct.
Print Assumptions pair_choice.
Print Assumptions sample_permutation_correct.
Print Assumptions sample_one_refuted.
Print Assumptions swap_balance.
Print Assumptions exchange_correct.
Print Assumptions unbuffered_refuted.
