(** Property C62: the forces of molecular dynamics are minus the gradient of the energy. *)
From Coq Require Import Reals Lra.
From Coquelicot Require Import Coquelicot.
From stdpp Require Import gmap.
From Verif Require Import Base Vec3 BoxSpec OrthoModel OrthoSpec OrthoProofs OrthoProps MonoModel MonoSpec MonoProofs MonoProps.
From Verif Require Import McCellModel DomainModel DomainProofs SpeciesModel SpeciesProofs.
From Verif Require Import CellListModel CellListSpec CellListProofs CellListProps PairListModel PairListSpec PairListProofs PairListProps.
From Verif Require Import EnergyModel EnergySpec EnergyProofs MoveModel MoveSpec MoveProofs EnergyProps MoveProps MdModel MdSpec MdProofs MdForces MdProps GradSpec MdGradSpec MdGradProofs.
From Verif Require Import Deriv.
From Coq Require Import Reals Lra.
Local Open Scope R_scope.

Lemma total_force_gradient y u extE cap skin cut n pos :
  md_ok y cap skin cut n -> groups_ok y -> smooth_at y u extE pos ->
  forall e, is_derive (fun t => md_energy y u extE (displaced pos e t)) 0 (- work (yAtoms y) (total_force y pos) e).
Proof.
  intros Ho Hg Hs e. unfold md_energy, total_energy, work.
  assert (E : sum_over (yAtoms y) (fun a => vdot (total_force y pos a) (e a)) =
     sum_over (yAtoms y) (fun a => vdot (pair_part y pos a) (e a)) + sum_over (yAtoms y) (fun a => vdot (bonded_part y pos a) (e a)) +
     sum_over (yAtoms y) (fun a => vdot (external_part y pos a) (e a))).
  { rewrite <- !EnergyProofs.sum_plus. apply sum_ext. intros a _. unfold total_force. by rewrite !vdot_add_l. }
  rewrite E, (pair_work y cap skin cut n Ho).
  assert (EB : sum_over (yAtoms y) (fun a => vdot (bonded_part y pos a) (e a)) =
     sum_over (yKinds y) (fun k => sum_over (kMols (fK k)) (fun m => sum_over (kGrp (fK k) m) (fun g =>
       chain_work (gAt g) (fF k (map pos (gAt g)) (gTy g)) e)))).
  { unfold bonded_part.
    rewrite (sum_ext _ (fun a => sum_over (yKinds y) (fun k => sum_over (kMols (fK k)) (fun m => sum_over (kGrp (fK k) m) (fun g =>
      vdot (group_force (gAt g) (fF k (map pos (gAt g)) (gTy g)) a) (e a)))))).
    2:{ intros a _. rewrite vdot_sum_l. apply sum_ext. intros k _. rewrite vdot_sum_l. apply sum_ext. intros m _. apply vdot_sum_l. }
    rewrite sum_swap. apply sum_ext. intros k Hk. rewrite sum_swap. apply sum_ext. intros m Hm. rewrite sum_swap. apply sum_ext. intros g Hin.
    destruct (Hg k m g Hk Hm Hin) as [H1 H2]. apply group_work; [apply (mo_nodup _ _ _ _ _ Ho)|done|apply H2]. }
  rewrite EB, !Ropp_plus_distr.
  assert (NEG : forall (A : Type) (l : list A) f, - sum_over l f = sum_over l (fun x => - f x)).
  { intros A l f. replace (- sum_over l f) with (-1 * sum_over l f) by ring. rewrite <- sum_scale. apply sum_ext. intros; ring. }
  apply (is_derive_plus (V := R_NormedModule)); [apply (is_derive_plus (V := R_NormedModule))|].
  - rewrite NEG. unfold pair_energy. apply derive_sum. intros i Hi. rewrite NEG. apply derive_sum. intros j Hj.
    destruct (decide (i < j)%nat) as [Hlt|]; [|rewrite Ropp_0; apply (is_derive_const (V := R_NormedModule))].
    destruct (yMask y i j) eqn:Hm; [rewrite Ropp_0; apply (is_derive_const (V := R_NormedModule))|].
    apply (pair_derive y cap skin cut n Ho u pos e i j). apply (sm_pairs _ _ _ _ Hs); [done..|lia|done].
  - rewrite NEG. eapply is_derive_ext; [intros t; symmetry; apply sum_map|]. apply derive_sum. intros k Hk. rewrite NEG. unfold bonded_energy.
    apply derive_sum. intros m Hm. rewrite NEG. apply derive_sum. intros g Hin.
    destruct (sm_groups _ _ _ _ Hs k m g Hk Hm Hin) as [H|[H|H]];
      [by apply (bond_derive y cap skin cut n Ho)|by apply (angle_derive y cap skin cut n Ho)|by apply (dihedral_derive y cap skin cut n Ho)].
  - rewrite NEG. unfold external_energy. apply derive_sum. intros a Ha. pose proof (sm_field _ _ _ _ Hs a Ha) as HF. unfold field_smooth in HF.
    unfold external_part. destruct (yExt y) as [f|], extE as [v|]; try done.
    + eapply is_derive_eq; [apply (HF (e a))|]. unfold vopp, vscale, vdot. cbn [vx vy vz]. ring.
    + rewrite vdot_zero_l, Ropp_0. apply (is_derive_const (V := R_NormedModule)).
Qed.

(** C62.  When MdSystem::calculateForces ends, the forces it has stored are minus the gradient of the potential energy of C60
    at the positions of the atoms: moving all atoms at once in any directions changes the energy, to first order, by minus the
    work of the stored forces.  The interactions have to be differentiable at the configuration and no two interacting
    atoms exactly half a cell apart. *)
Theorem md_forces_are_gradient :
  forall y u extE cap A Pc skin cut n pos F p pos2 F2 p2,
  md_ok y cap skin cut n -> groups_ok y -> list_built y cap A Pc skin cut p -> nearby y pos ->
  md_calc y pos F p = Ok (pos2, F2, p2) -> smooth_at y u extE pos2 ->
  forall e, is_derive (fun t => md_energy y u extE (displaced pos2 e t)) 0 (- work (yAtoms y) F2 e).
Proof.
  intros y u extE cap A Pc skin cut n pos F p pos2 F2 p2 Ho Hg Hb Hn Hc Hs e.
  destruct (md_forces_correct y cap A Pc skin cut n pos F p Ho Hg Hb Hn) as [(q & G & x & E & _ & _ & _ & HF & _)|[E _]]; rewrite Hc in E; [|done].
  injection E as <- <- <-. eapply is_derive_eq; [by eapply total_force_gradient|]. f_equal. apply sum_ext. intros a Ha. by rewrite HF.
Qed.
