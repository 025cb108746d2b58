(** Pairs of atoms selected by the analyzers (C103). *)
From stdpp Require Import relations gmap.
From Verif Require Import Base Vec3 BoxSpec OrthoModel OrthoSpec OrthoProofs OrthoProps MonoModel MonoSpec MonoProofs MonoProps.
From Verif Require Import McCellModel DomainModel DomainProofs SpeciesModel SpeciesProofs.
From Verif Require Import CellListModel CellListSpec CellListProofs CellListProps PairListModel PairListSpec PairListProofs PairListProps.
From Verif Require Import EnergyModel EnergySpec EnergyProofs MoveModel MoveSpec MoveProofs EnergyProps MoveProps PairSelModel PairSelSpec PairSelProofs.
From Coq Require Import Reals Lra.
Local Open Scope R_scope.

(** C103.  Without the policy against double counting a selector accepts exactly the ordered pairs wanted. *)
Theorem selector_plain : forall molOf ty s i j, slAvoid s = false -> sel_match molOf ty s i j = true <-> wanted molOf ty s i j.
Proof. intros molOf ty s i j Ha. rewrite match_iff. split; [by intros [? _]|]. intros H. split; [done|]. congruence. Qed.
(** With the policy, of every two atoms exactly one order is accepted if they are wanted in one order or both, and none otherwise. *)
Theorem selector_once :
  forall molOf ty s i j, slAvoid s = true -> i <> j ->
  (wanted molOf ty s i j \/ wanted molOf ty s j i -> sel_match molOf ty s i j = negb (sel_match molOf ty s j i)) /\
  (~ wanted molOf ty s i j -> ~ wanted molOf ty s j i -> sel_match molOf ty s i j = false /\ sel_match molOf ty s j i = false).
Proof.
  intros molOf ty s i j Ha Hij. pose proof (match_iff molOf ty s i j) as M1. pose proof (match_iff molOf ty s j i) as M2. split.
  - intros HW.
    assert (HS : ((slT1 s < 0)%Z /\ (slT2 s < 0)%Z) \/ ty i = ty j -> wanted molOf ty s i j -> wanted molOf ty s j i).
    { unfold wanted. intros HT (H1 & H2 & H3 & H4 & H5). split; [congruence|]. split; [intros; symmetry; auto|]. split; [intros E E'; apply (H3 E); congruence|].
      destruct HT as [[HT1 HT2]|HT]; [auto|]. rewrite HT in *. auto. }
    assert (HS' : ((slT1 s < 0)%Z /\ (slT2 s < 0)%Z) \/ ty i = ty j -> wanted molOf ty s j i -> wanted molOf ty s i j).
    { unfold wanted. intros HT (H1 & H2 & H3 & H4 & H5). split; [congruence|]. split; [intros; symmetry; auto|]. split; [intros E E'; apply (H3 E); congruence|].
      destruct HT as [[HT1 HT2]|HT]; [auto|]. rewrite HT in *. auto. }
    destruct (decide (((slT1 s < 0)%Z /\ (slT2 s < 0)%Z) \/ ty i = ty j)) as [HT|HT].
    + assert (wanted molOf ty s i j /\ wanted molOf ty s j i) as [W1 W2] by (destruct HW; auto).
      assert (((slT1 s < 0)%Z /\ (slT2 s < 0)%Z) \/ ty j = ty i) as HT' by (destruct HT; auto).
      destruct (sel_match molOf ty s i j), (sel_match molOf ty s j i); cbn [negb]; try done; exfalso.
      * destruct (proj1 M1 eq_refl) as [_ H1]. destruct (proj1 M2 eq_refl) as [_ H2]. specialize (H1 Ha HT). specialize (H2 Ha HT'). lia.
      * destruct (decide (i < j)%nat) as [Hl|Hl]; [assert (false = true) by (apply M1; split; [done|intros; lia])|assert (false = true) by (apply M2; split; [done|intros; lia])]; done.
    + assert (HT' : ~ (((slT1 s < 0)%Z /\ (slT2 s < 0)%Z) \/ ty j = ty i)) by (intros [|]; apply HT; auto).
      assert (HX : ~ (wanted molOf ty s i j /\ wanted molOf ty s j i)).
      { unfold wanted. intros [(_ & _ & _ & H4 & H5) (_ & _ & _ & H6 & H7)]. apply HT. destruct (decide (slT1 s < 0)%Z).
        - left. split; [done|]. destruct H5, H7; try done. exfalso. apply HT. right. congruence.
        - right. destruct H4, H6; try lia; congruence. }
      destruct HW as [W|W].
      * assert (sel_match molOf ty s i j = true) as -> by (apply M1; split; [done|]; by intros _ ?). destruct (sel_match molOf ty s j i); [|done]. exfalso. apply HX. split; [done|]. by apply M2.
      * assert (sel_match molOf ty s j i = true) as -> by (apply M2; split; [done|]; by intros _ ?). destruct (sel_match molOf ty s i j); [|done]. exfalso. apply HX. split; [|done]. by apply M1.
  - intros N1 N2. destruct (sel_match molOf ty s i j), (sel_match molOf ty s j i); try done; exfalso; first [apply N1, M1; done|apply N2, M2; done].
Qed.

(** C103.  Take either boundary, masks, a pair interaction, and any state in which the cell list holds the atoms at their positions (as after
    buildCellList, and after every move: C60, C61).  McPairEnergyAverage and McPairEnergyAnalyzer sample the energy of every unmasked pair of atoms
    that the selector wants, in either order, once. *)
Theorem selected_energy_correct :
  forall M cap B masked u cut n atoms s molOf sel,
  (2 <= M)%nat -> a_boundary B -> interaction_ok cut u -> grid_of (bLens B) cut n -> NoDup atoms -> (forall i j, masked i j = masked j i) ->
  synced M cap (bGen B) (bLens B) cut n atoms s -> slAvoid sel = true ->
  sel_energy M (bDist B) masked u molOf sel s =
  Ok (wanted_energy (bDist B) masked u atoms (wanted molOf (sTy s) sel) (sPos s) (sTy s)).
Proof.
  intros M cap B masked u cut n atoms s molOf sel HM HB (Hc & Hcut & Hu) HG Hnd Hmask Hs Ha.
  pose proof (boundary_facts B HB) as F. pose proof (boundary_adj B cut n HB Hc HG) as Hadj.
  destruct (holding_clinv M cap HM (bGen B) (bLens B) cut n atoms (bf_pos B F) Hc HG _ _ Hs) as (h & I & Hh).
  assert (HB' : held_but atoms h (sPos s) []).
  { split.
    - intros a. rewrite Hh. destruct (decide (a ∈ atoms)); split; try done; eauto. intros [? ?]. done.
    - intros a Hin _. by rewrite Hh, decide_True. }
  rewrite (sel_energy_eq M cap HM (bGen B) (bDist B) n masked u cut molOf atoms Hnd Hadj Hcut sel s h I HB'). f_equal.
  pose proof (bf_sym B F) as Hsym.
  assert (D : forall i j, sel_match molOf (sTy s) sel i j = true -> sel_match molOf (sTy s) sel j i = false).
  { intros i j E. destruct (decide (i = j)) as [->|Hne]; [by apply match_iff in E as [[? _] _]|].
    destruct (selector_once molOf (sTy s) sel j i Ha ltac:(congruence)) as [H1 _]. rewrite H1; [by rewrite E|]. right. by apply match_iff in E as [? _]. }
  rewrite sum_once; [|done|intros i j; by apply w_sym| |done].
  - unfold wanted_energy. apply sum_ext. intros i _. apply sum_ext. intros j _. destruct (decide (i < j)%nat) as [Hl|Hl].
    + destruct (selector_once molOf (sTy s) sel i j Ha ltac:(lia)) as [H1 H2]. destruct (decide _) as [[_ HW]|HW].
      * rewrite (H1 HW). destruct (sel_match molOf (sTy s) sel j i); done.
      * destruct H2 as [-> ->]; [intros ?; apply HW; auto|intros ?; apply HW; auto|done].
    + rewrite decide_False; [done|]. tauto.
  - intros i. destruct (sel_match _ _ _ i i) eqn:E; [|done]. by apply match_iff in E as [[? _] _].
Qed.

(** C103.  One snapshot of RDF: the distances of all ordered pairs wanted, in the order of the loops. *)
Theorem rdf_pairs_correct : forall sel x, slAvoid sel = false ->
  rdf_pairs sel x = map (fun p => sqrt (snDist2 x (snPos x p.1) (snPos x p.2))) (filter (fun p => wanted (snMol x) (snTy x) sel p.1 p.2) (list_prod (snAtoms x) (snAtoms x))).
Proof.
  intros sel x Ha. unfold rdf_pairs. set (A := snAtoms x). set (g := fun p : nat * nat => sqrt (snDist2 x (snPos x p.1) (snPos x p.2))).
  assert (Inner : forall i B l, fold_left (fun l j => if sel_match (snMol x) (snTy x) sel i j then l ++ [sqrt (snDist2 x (snPos x i) (snPos x j))] else l) B l
    = l ++ map g (filter (fun p => wanted (snMol x) (snTy x) sel p.1 p.2) (map (fun j => (i, j)) B))).
  { intros i. induction B as [|j B IH]; intros l; cbn [fold_left map]; [by rewrite app_nil_r|]. rewrite IH, filter_cons. cbn [fst snd].
    destruct (sel_match (snMol x) (snTy x) sel i j) eqn:E.
    - apply selector_plain in E; [|done]. rewrite decide_True by done. cbn [map]. rewrite <- app_assoc. done.
    - rewrite decide_False; [done|]. intros H. apply selector_plain in H; [congruence|done]. }
  assert (Outer : forall C l, fold_left (fun l i => fold_left (fun l j => if sel_match (snMol x) (snTy x) sel i j then l ++ [sqrt (snDist2 x (snPos x i) (snPos x j))] else l) A l) C l
    = l ++ map g (filter (fun p => wanted (snMol x) (snTy x) sel p.1 p.2) (list_prod C A))).
  { induction C as [|i C IH]; intros l; cbn [fold_left list_prod]; [by rewrite app_nil_r|]. rewrite IH, Inner, filter_app, map_app, app_assoc. done. }
  by rewrite Outer.
Qed.

Lemma rdf_number x nt : (forall i, i ∈ snAtoms x -> (0 <= snTy x i < Z.of_nat nt)%Z) -> fold_left (fun k t => k + type_number x t) (seq 0 nt) 0 = total_number x.
Proof.
  intros H. rewrite (fold_sum_ext _ (type_number x)) by done. rewrite Rplus_0_l. unfold total_number.
  transitivity (sum_over (seq 0 nt) (fun t => sum_over (snAtoms x) (fun i => if Z.eqb (snTy x i) (Z.of_nat t) then 1 else 0))).
  { apply sum_ext. intros t _. unfold type_number. rewrite (fold_sum_ext _ (fun i => if Z.eqb (snTy x i) (Z.of_nat t) then 1 else 0)); [lra|].
    intros e i _. destruct (Z.eqb _ _); lra. }
  rewrite sum_swap. induction (snAtoms x) as [|i A IH]; [done|]. rewrite sum_cons. cbn [length]. rewrite S_INR, IH by (intros; apply H; by right).
  assert (sum_over (seq 0 nt) (fun t => if Z.eqb (snTy x i) (Z.of_nat t) then 1 else 0) = 1) as ->; [|lra].
  destruct (H i ltac:(left)) as [H0 H1]. rewrite (sum_one _ _ (Z.to_nat (snTy x i))).
  - assert (Z.eqb (snTy x i) (Z.of_nat (Z.to_nat (snTy x i))) = true) as -> by (apply Z.eqb_eq; lia). done.
  - apply NoDup_ListNoDup, seq_NoDup.
  - apply elem_of_list_In, in_seq. lia.
  - intros t _ Ht. destruct (Z.eqb_spec (snTy x i) (Z.of_nat t)); [|done]. exfalso. apply Ht. lia.
Qed.
(** normSum_/nSnapshot after one run is the mean of the squared total number of atoms over the volume, for every selector. *)
Theorem rdf_norm_value : forall nt sel xs, (forall x i, x ∈ xs -> i ∈ snAtoms x -> (0 <= snTy x i < Z.of_nat nt)%Z) ->
  rdf_norm (fold_left (rdf_sample nt sel) xs (rdf_setup rdf_new)) = sum_over xs (fun x => total_number x * total_number x / snVol x) / INR (length xs).
Proof.
  intros nt sel xs H. assert (G : forall d, rdNorm (fold_left (rdf_sample nt sel) xs d) = rdNorm d + sum_over xs (fun x => total_number x * total_number x / snVol x) /\
    length (rdSnaps (fold_left (rdf_sample nt sel) xs d)) = (length (rdSnaps d) + length xs)%nat).
  { induction xs as [|x xs IH]; intros d; cbn [fold_left].
    - rewrite sum_nil. cbn [length]. split; [lra|lia].
    - destruct (IH ltac:(intros; eapply H; [by right|done]) (rdf_sample nt sel d x)) as [E1 E2]. rewrite E1, E2. unfold rdf_sample. cbn [rdNorm rdSnaps].
      rewrite rdf_number by (intros; apply (H x); [left|done]). rewrite sum_cons, app_length. cbn [length]. split; [lra|lia]. }
  unfold rdf_norm. destruct (G (rdf_setup rdf_new)) as [-> ->]. cbn. by rewrite Rplus_0_l.
Qed.
(** The pairs of two given types are too few for this norm: in every snapshot with other atoms too the norm differs from the product of the numbers
    of atoms of the two types over the volume, so the distribution of unlike or of chosen types does not tend to 1. *)
Theorem rdf_norm_refuted : forall nt sel x, (forall i, i ∈ snAtoms x -> (0 <= snTy x i < Z.of_nat nt)%Z) -> 0 < snVol x ->
  kind_number x (slT1 sel) * kind_number x (slT2 sel) < total_number x * total_number x ->
  rdf_norm (rdf_sample nt sel (rdf_setup rdf_new) x) <> kind_number x (slT1 sel) * kind_number x (slT2 sel) / snVol x.
Proof.
  intros nt sel x H HV HN E. pose proof (rdf_norm_value nt sel [x]) as G. cbn [fold_left length] in G. rewrite G in E.
  - rewrite sum_cons, sum_nil in E. change (INR 1) with 1 in E.
    assert (kind_number x (slT1 sel) * kind_number x (slT2 sel) = total_number x * total_number x); [|lra].
    apply (Rmult_eq_reg_r (/ snVol x)); [|apply Rinv_neq_0_compat; lra]. unfold Rdiv in E. lra.
  - intros y i ->%elem_of_list_singleton. apply H.
Qed.
(** setup clears the samples but not normSum_: the norm of a second run contains the first. *)
Theorem rdf_second_run_refuted : forall nt sel xs ys, xs <> [] -> ys <> [] -> (forall x, x ∈ xs -> snAtoms x <> [] /\ 0 < snVol x) ->
  (forall x i, x ∈ xs \/ x ∈ ys -> i ∈ snAtoms x -> (0 <= snTy x i < Z.of_nat nt)%Z) ->
  rdf_norm (fold_left (rdf_sample nt sel) ys (rdf_setup rdf_new)) <
  rdf_norm (fold_left (rdf_sample nt sel) ys (rdf_setup (fold_left (rdf_sample nt sel) xs (rdf_setup rdf_new)))).
Proof.
  intros nt sel xs ys Hx Hy Hp H.
  assert (G : forall zs d, (forall z i, z ∈ zs -> i ∈ snAtoms z -> (0 <= snTy z i < Z.of_nat nt)%Z) ->
    rdNorm (fold_left (rdf_sample nt sel) zs d) = rdNorm d + sum_over zs (fun x => total_number x * total_number x / snVol x) /\
    length (rdSnaps (fold_left (rdf_sample nt sel) zs d)) = (length (rdSnaps d) + length zs)%nat).
  { induction zs as [|x zs IH]; intros d Hz; cbn [fold_left].
    - rewrite sum_nil. cbn [length]. split; [lra|lia].
    - destruct (IH (rdf_sample nt sel d x)) as [E1 E2]; [intros; eapply Hz; [by right|done]|]. rewrite E1, E2. unfold rdf_sample. cbn [rdNorm rdSnaps].
      rewrite rdf_number by (intros; apply (Hz x); [left|done]). rewrite sum_cons, app_length. cbn [length]. split; [lra|lia]. }
  assert (P : 0 < sum_over xs (fun x => total_number x * total_number x / snVol x)).
  { assert (Q : forall x, x ∈ xs -> 0 < total_number x * total_number x / snVol x).
    { intros x Hin. destruct (Hp x Hin) as [Ha Hv]. unfold total_number. assert (0 < INR (length (snAtoms x))) by (apply lt_0_INR; destruct (snAtoms x); [done|cbn; lia]).
      apply Rmult_lt_0_compat; [nra|by apply Rinv_0_lt_compat]. }
    destruct xs as [|x xs]; [done|]. rewrite sum_cons. pose proof (Q x ltac:(left)).
    assert (0 <= sum_over xs (fun x => total_number x * total_number x / snVol x)); [|lra].
    assert (Q' : forall y, y ∈ xs -> 0 < total_number y * total_number y / snVol y) by (intros; apply Q; by right). clear -Q'.
    induction xs as [|y xs IH]; [rewrite sum_nil; lra|]. rewrite sum_cons. pose proof (Q' y ltac:(left)). pose proof (IH ltac:(intros; apply Q'; by right)). lra. }
  assert (Hys : forall z i, z ∈ ys -> i ∈ snAtoms z -> (0 <= snTy z i < Z.of_nat nt)%Z) by (intros; eapply H; eauto).
  assert (Hxs : forall z i, z ∈ xs -> i ∈ snAtoms z -> (0 <= snTy z i < Z.of_nat nt)%Z) by (intros; eapply H; eauto).
  destruct (G xs (rdf_setup rdf_new) Hxs) as [E1 _]. set (d1 := fold_left _ xs _) in *.
  unfold rdf_norm. destruct (G ys (rdf_setup rdf_new) Hys) as [-> ->]. destruct (G ys (rdf_setup d1) Hys) as [-> ->].
  unfold rdf_setup, rdf_new in *. cbn [rdNorm rdSnaps length Nat.add] in *. rewrite E1.
  assert (0 < INR (length ys)) by (apply lt_0_INR; destruct ys; [done|cbn; lia]).
  unfold Rdiv. apply Rmult_lt_compat_r; [by apply Rinv_0_lt_compat|]. lra.
Qed.

(** Atoms 0, 1 of types 0, 1 in molecule 0 and atom 2 of type 0 in molecule 1.  Intermolecular pairs of types 0 and 1: only atoms 1 and 2. *)
Definition ps_mol (a : nat) : nat := match a with 2%nat => 1%nat | _ => 0%nat end.
Definition ps_ty (a : nat) : Z := match a with 1%nat => 1%Z | _ => 0%Z end.
Example selector_example :
  map (fun p => sel_match ps_mol ps_ty (Sel INTER 0 1 true) p.1 p.2) [(0, 1); (1, 0); (0, 2); (2, 0); (1, 2); (2, 1)]%nat = [false; false; false; false; false; true] /\
  map (fun p => sel_match ps_mol ps_ty (Sel ALL (-1) 0 true) p.1 p.2) [(0, 1); (1, 0); (0, 2); (2, 0); (1, 2); (2, 1)]%nat = [false; true; true; false; true; false] /\
  wanted ps_mol ps_ty (Sel INTER 0 1 true) 2 1 /\ ~ wanted ps_mol ps_ty (Sel INTER 0 1 true) 1 2.
Proof. split; [done|]. split; [done|]. split; [|by intros (_ & _ & _ & [H|H] & _); cbn in H]. unfold wanted. cbn. repeat split; auto; done. Qed.
Definition ps_snap : snapshot := Snap [0; 1; 2]%nat (fun a => V3 (INR a) 0 0) ps_mol ps_ty (distanceSq ex_box) 1000.
Example rdf_example : rdf_pairs (Sel INTER 0 1 false) ps_snap = [sqrt (distanceSq ex_box (V3 (INR 2) 0 0) (V3 (INR 1) 0 0))].
Proof. rewrite rdf_pairs_correct by done. reflexivity. Qed.
Example rdf_norm_example : rdf_norm (rdf_sample 2 (Sel ALL 0 1 false) (rdf_setup rdf_new) ps_snap) <> 2 * 1 / 1000.
Proof.
  assert (K0 : kind_number ps_snap 0 = 2) by (unfold kind_number, sum_over; cbn [map Rsum ps_snap snAtoms snTy ps_ty]; repeat match goal with |- context [decide ?P] => destruct (decide P) end; try lra; exfalso; lia). assert (K1 : kind_number ps_snap 1 = 1) by (unfold kind_number, sum_over; cbn [map Rsum ps_snap snAtoms snTy ps_ty]; repeat match goal with |- context [decide ?P] => destruct (decide P) end; try lra; exfalso; lia).
  pose proof (rdf_norm_refuted 2 (Sel ALL 0 1 false) ps_snap) as H. cbn [slT1 slT2] in H. rewrite K0, K1 in H. apply H.
  - intros [|[|[|i]]] _; cbn; lia.
  - cbn [ps_snap snVol]. lra.
  - unfold total_number. cbn. lra.
Qed.
Example rdf_second_run_example : rdf_norm (fold_left (rdf_sample 2 (Sel ALL 0 1 false)) [ps_snap] (rdf_setup rdf_new)) <
  rdf_norm (fold_left (rdf_sample 2 (Sel ALL 0 1 false)) [ps_snap] (rdf_setup (fold_left (rdf_sample 2 (Sel ALL 0 1 false)) [ps_snap; ps_snap] (rdf_setup rdf_new)))).
Proof.
  assert (P : forall x, x ∈ [ps_snap; ps_snap] -> x = ps_snap) by (intros x; rewrite !elem_of_cons, elem_of_nil; tauto).
  apply rdf_second_run_refuted; [done|done| |].
  - intros x ->%P. split; [done|cbn [ps_snap snVol]; lra].
  - intros x i Hx. assert (x = ps_snap) as -> by (destruct Hx as [Hx|Hx]; [by apply P|by apply elem_of_list_singleton in Hx]). intros _. destruct i as [|[|[|i]]]; cbn; lia.
Qed.
(** The atoms of [mc_energy_example], with atom 1 of type 1: no pair has two atoms of type 1, and of the pairs of types 0 and 1 only atoms 0 and 1 interact. *)
Example selected_energy_example : exists s, synced 61 4 (cartToGen ex_box) (oLen ex_box) 1 (V3 10 10 10)%Z ex_atoms s /\
  sel_energy 61 (distanceSq ex_box) ex_mask2 ex_u ps_mol (Sel ALL 1 1 true) s = Ok 0 /\
  sel_energy 61 (distanceSq ex_box) ex_mask2 ex_u ps_mol (Sel ALL 0 1 true) s =
  Ok (wanted_energy (distanceSq ex_box) ex_mask2 ex_u ex_atoms (wanted ps_mol (sTy s) (Sel ALL 0 1 true)) (sPos s) (sTy s)) /\
  wanted ps_mol (sTy s) (Sel ALL 0 1 true) 0 1.
Proof.
  destruct (ex_built ps_ty) as (s & Hs & HP & HT). exists s. split; [done|]. destruct mc_energy_example as (HB & _).
  split; [|split].
  - etransitivity; [apply (selected_energy_correct 61 4 (ortho_bd ex_box) ex_mask2 ex_u 1 (V3 10 10 10)%Z ex_atoms s ps_mol (Sel ALL 1 1 true)); [lia|done|apply ex_ix|apply ex_grid10|apply ex_nodup|apply ex_sym|done|done]|].
    f_equal. apply sum_0. intros i _. apply sum_0. intros j _. rewrite decide_False; [done|]. intros [Hl HW].
    assert (sTy s i = 1%Z /\ sTy s j = 1%Z) as [T1 T2] by (unfold wanted in HW; cbn in HW; destruct HW as [(_ & _ & _ & [|] & [|])|(_ & _ & _ & [|] & [|])]; split; lia).
    rewrite HT in T1, T2. destruct i as [|[|i]], j as [|[|j]]; cbn in T1, T2; lia.
  - apply (selected_energy_correct 61 4 (ortho_bd ex_box) ex_mask2 ex_u 1 (V3 10 10 10)%Z ex_atoms s ps_mol (Sel ALL 0 1 true)); [lia|done|apply ex_ix|apply ex_grid10|apply ex_nodup|apply ex_sym|done|done].
  - unfold wanted. rewrite !HT. cbn. repeat split; auto; done.
Qed.

Print Assumptions selector_plain.
Print Assumptions selector_once.
Print Assumptions selected_energy_correct.
Print Assumptions rdf_pairs_correct.
Print Assumptions rdf_norm_value.
Print Assumptions rdf_norm_refuted.
Print Assumptions rdf_second_run_refuted.
