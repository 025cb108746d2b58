(** Property C37: dihedral interactions; the dihedral part of C56. *)
From Verif Require Import Base Vec3 BoxSpec BondModel AngleModel DihedralModel GradSpec DihedralSpec AngleProofs DihedralProofs Deriv.
From Coq Require Import Reals Lra.
From Coquelicot Require Import Coquelicot.
Local Open Scope R_scope.

Lemma dihedral_cosine_range b1 b2 b3 : well_defined b1 b2 b3 -> -1 <= dihedral_cosine b1 b2 b3 <= 1.
Proof.
  intros [H1 H2]. pose proof tor_eps_pos as Pe. unfold tor_eps in Pe. unfold dihedral_cosine, cosine.
  rewrite <- sqrt_mult by apply normSq_nonneg.
  set (v1 := cross b1 b2) in *. set (v2 := cross b2 b3) in *.
  assert (PP : 0 < normSq v1 * normSq v2) by (apply Rmult_lt_0_compat; lra).
  set (d := sqrt (normSq v1 * normSq v2)). assert (Pd : 0 < d) by by apply sqrt_lt_R0.
  assert (Ed : d * d = normSq v1 * normSq v2) by (apply sqrt_def; lra).
  pose proof (vdot_cauchy v1 v2) as C. rewrite <- Ed in C.
  set (c := vdot v1 v2 / d). assert (Ec : c * d = vdot v1 v2) by (unfold c; field; lra).
  rewrite <- Ec in C. assert (c * c <= 1) by nra. nra.
Qed.

(** C37, CosineDihedral: for every history of setNDihedralType, readParameters and set. *)
Theorem cosine_dihedral_force_is_gradient :
  forall n k ops d i kap r0 r1 r2 r3,
  cd_life n k ops = Ok d -> cd_get d i = Ok kap ->
  let b1 := vsub r1 r0 in let b2 := vsub r2 r1 in let b3 := vsub r3 r2 in
  (well_defined b1 b2 b3 ->
     cd_energy d b1 b2 b3 i = kap * (1 + cos (acos (dihedral_cosine b1 b2 b3)))) /\
  (well_defined b1 b2 b3 \/ degenerate b1 b2 b3 ->
     dihedral_forces_ok (fun x y z => cd_energy d x y z i) r0 r1 r2 r3 (dihedral_atom_forces (cd_force d b1 b2 b3 i))).
Proof.
  intros n k ops d i kap r0 r1 r2 r3 _ G b1 b2 b3. unfold cd_get in G. case_match; [|done]. injection G as <-.
  assert (E : forall x y z, well_defined x y z -> cd_energy d x y z i = cdK d i * (1 + dihedral_cosine x y z)).
  { intros x y z W. unfold cd_energy. by rewrite (tor_angle_ok _ _ _ W). }
  split.
  - intros W. rewrite cos_acos by by apply dihedral_cosine_range. by apply E.
  - intros [W|W].
    + destruct (dihedral_grad (fun x y z => cd_energy d x y z i) (fun c => cdK d i * (1 + c)) b1 b2 b3 (cdK d i))
        as (d1 & d2 & d3 & Et & Hg & Ht); [exact E| |exact W|].
      { auto_derive; [done|ring]. }
      unfold cd_force. rewrite Et. by apply dihedral_atoms.
    + destruct (tor_angle_deg _ _ _ W) as [_ Et]. unfold cd_force. rewrite Et. apply dihedral_atoms.
      * apply dihedral_grad_deg; [|exact W]. intros x y z D. unfold cd_energy. destruct (tor_angle_deg _ _ _ D) as [-> _]. done.
      * unfold vadd, cross, vzero; simpl. f_equal; ring.
Qed.

(** Invariant of FourierDihedral: every entry is consistent. *)
Definition cf_ok (p : coeffs) : Prop := cf_init p = p.
Definition fd_ok (d : fdihedral) : Prop := List.Forall cf_ok (fdC d).
Lemma cf_init_ok p : cf_ok (cf_init p).
Proof. done. Qed.
Lemma fd_read_ok d ks d' : fd_read d ks = Ok d' -> fd_ok d'.
Proof.
  unfold fd_read. repeat case_match; try done. intros [= <-]. unfold fd_ok. simpl.
  apply List.Forall_forall. intros p Hp. apply in_map_iff in Hp as (q & <- & _). apply cf_init_ok.
Qed.
Lemma fd_set_ok d j i x d' : fd_ok d -> fd_set d j i x = Ok d' -> fd_ok d'.
Proof.
  unfold fd_ok, fd_set. intros H. destruct (aget (fdC d) i) as [p| |] eqn:E; simpl; try done. case_match; [done|].
  unfold aset. case_match; simpl; [|done]. intros [= <-]. simpl.
  apply Forall_insert; [exact H|apply cf_init_ok].
Qed.
Lemma fd_life_ok n ks ops d : fd_life n ks ops = Ok d -> fd_ok d.
Proof.
  unfold fd_life. intros H. apply obind_Ok in H as (d0 & _ & H). apply obind_Ok in H as (d1 & H1 & H).
  eapply (run_inv _ fd_ok); [|eapply fd_read_ok; exact H1|exact H].
  intros s o s' Hs. by apply fd_set_ok.
Qed.

(** C37, FourierDihedral: the energy is the Fourier series with the coefficients get() reports, and the
    forces are minus its gradient. *)
Theorem fourier_dihedral_force_is_gradient :
  forall n ks ops d i (k : nat -> R) r0 r1 r2 r3,
  fd_life n ks ops = Ok d -> (forall j, (j <= 4)%nat -> fd_get d j i = Ok (k j)) ->
  let b1 := vsub r1 r0 in let b2 := vsub r2 r1 in let b3 := vsub r3 r2 in
  let phi := acos (dihedral_cosine b1 b2 b3) in
  (well_defined b1 b2 b3 ->
     fd_energy d b1 b2 b3 i =
     Ok (k 0%nat + k 1%nat * cos phi + k 2%nat * cos (2 * phi) + k 3%nat * cos (3 * phi) + k 4%nat * cos (4 * phi))) /\
  (well_defined b1 b2 b3 \/ degenerate b1 b2 b3 ->
     exists f, fd_force d b1 b2 b3 i = Ok f /\
     exists en, (forall x y z, fd_energy d x y z i = Ok (en x y z)) /\
     dihedral_forces_ok en r0 r1 r2 r3 (dihedral_atom_forces f)).
Proof.
  intros n ks ops d i k r0 r1 r2 r3 L G b1 b2 b3 phi. apply fd_life_ok in L.
  destruct (aget (fdC d) i) as [p| |] eqn:Ep;
    [|specialize (G 0%nat ltac:(lia)); unfold fd_get in G; rewrite Ep in G; discriminate..].
  assert (K0 : k 0%nat = k0 p) by (specialize (G 0%nat ltac:(lia)); unfold fd_get in G; rewrite Ep in G; simpl in G; congruence).
  assert (K1 : k 1%nat = k1 p) by (specialize (G 1%nat ltac:(lia)); unfold fd_get in G; rewrite Ep in G; simpl in G; congruence).
  assert (K2 : k 2%nat = k2 p) by (specialize (G 2%nat ltac:(lia)); unfold fd_get in G; rewrite Ep in G; simpl in G; congruence).
  assert (K3 : k 3%nat = k3 p) by (specialize (G 3%nat ltac:(lia)); unfold fd_get in G; rewrite Ep in G; simpl in G; congruence).
  assert (K4 : k 4%nat = k4 p) by (specialize (G 4%nat ltac:(lia)); unfold fd_get in G; rewrite Ep in G; simpl in G; congruence).
  assert (Hp : cf_ok p).
  { unfold aget in Ep. destruct (fdC d !! i) eqn:El; [|done]. injection Ep as <-.
    eapply List.Forall_forall; [exact L|]. apply elem_of_list_In. by eapply elem_of_list_lookup_2. }
  unfold cf_ok in Hp. 
  assert (A0 : a0 p = k0 p - k2 p + k4 p) by (rewrite <- Hp; reflexivity).
  assert (A1 : a1 p = k1 p - 3 * k3 p) by (rewrite <- Hp; reflexivity).
  assert (A2 : a2 p = 2 * k2 p - 8 * k4 p) by (rewrite <- Hp; reflexivity).
  assert (A3 : a3 p = 4 * k3 p) by (rewrite <- Hp; reflexivity).
  assert (A4 : a4 p = 8 * k4 p) by (rewrite <- Hp; reflexivity).
  assert (G2 : g2 p = 2 * a2 p) by (rewrite <- Hp; reflexivity).
  assert (G3 : g3 p = 3 * a3 p) by (rewrite <- Hp; reflexivity).
  assert (G4 : g4 p = 4 * a4 p) by (rewrite <- Hp; reflexivity).
  set (g := fun c => a0 p + c * (a1 p + c * (a2 p + c * (a3 p + c * a4 p)))).
  set (en := fun x y z => match tor_angle x y z with Some c => g c | None => 0 end).
  assert (Een : forall x y z, fd_energy d x y z i = Ok (en x y z)).
  { intros x y z. unfold fd_energy, en. destruct (tor_angle x y z); [|done]. rewrite Ep. done. }
  assert (Ew : forall x y z, well_defined x y z -> en x y z = g (dihedral_cosine x y z)).
  { intros x y z W. unfold en. by rewrite (tor_angle_ok _ _ _ W). }
  split.
  - intros W. rewrite Een, (Ew _ _ _ W). f_equal. rewrite K0, K1, K2, K3, K4.
    assert (C1 : cos phi = dihedral_cosine b1 b2 b3) by (apply cos_acos; by apply dihedral_cosine_range).
    assert (C2 : cos (2 * phi) = 2 * (cos phi * cos phi) - 1) by (rewrite cos_2a_cos; ring).
    assert (SS : sin phi * sin phi = 1 - cos phi * cos phi).
    { pose proof (sin2_cos2 phi) as S. unfold Rsqr in S. lra. }
    assert (S2 : sin (2 * phi) = 2 * sin phi * cos phi) by apply sin_2a.
    assert (C3 : cos (3 * phi) = 4 * (cos phi * cos phi * cos phi) - 3 * cos phi).
    { replace (3 * phi) with (2 * phi + phi) by ring. rewrite cos_plus, C2, S2.
      replace (2 * sin phi * cos phi * sin phi) with (2 * (sin phi * sin phi) * cos phi) by ring. rewrite SS. ring. }
    assert (C4 : cos (4 * phi) = 8 * (cos phi * cos phi * cos phi * cos phi) - 8 * (cos phi * cos phi) + 1).
    { replace (4 * phi) with (2 * (2 * phi)) by ring. rewrite cos_2a_cos, C2. ring. }
    rewrite C2, C3, C4, C1. unfold g. rewrite A0, A1, A2, A3, A4. ring.
  - intros W. destruct W as [W|W].
    + destruct (dihedral_grad en g b1 b2 b3 (let c := dihedral_cosine b1 b2 b3 in a1 p + c * (g2 p + c * (g3 p + c * g4 p))))
        as (d1 & d2 & d3 & Et & Hg & Ht); [exact Ew| |exact W|].
      { unfold g. auto_derive; [done|]. simpl. rewrite G2, G3, G4. ring. }
      eexists. split; [unfold fd_force; rewrite Et, Ep; reflexivity|].
      exists en. split; [exact Een|]. by apply dihedral_atoms.
    + destruct (tor_angle_deg _ _ _ W) as [_ Et]. eexists. split; [unfold fd_force; rewrite Et; reflexivity|].
      exists en. split; [exact Een|]. apply dihedral_atoms.
      * apply dihedral_grad_deg; [|exact W]. intros x y z D. unfold en. destruct (tor_angle_deg _ _ _ D) as [-> _]. done.
      * unfold vadd, cross, vzero; simpl. f_equal; ring.
Qed.

(** C56, dihedrals: get() reports the last value set. *)
Theorem cosine_dihedral_get_reports : forall d i x d' j y, cd_set d i x = Ok d' -> cd_get d j = Ok y ->
  cd_get d' j = Ok (if decide (j = i) then x else y).
Proof.
  intros d i x d' j y. unfold cd_set, cd_get. destruct (i <? 8)%nat; [|done]. intros [= <-].
  destruct (j <? 8)%nat; [|done]. intros [= <-].
  simpl. unfold pset. destruct (decide (j = i)) as [->|N]; [by rewrite Nat.eqb_refl|].
  by rewrite (proj2 (Nat.eqb_neq _ _) N).
Qed.
Theorem fourier_dihedral_get_reports : forall d jp i x d' jq j y, fd_set d jp i x = Ok d' -> fd_get d jq j = Ok y ->
  fd_get d' jq j = Ok (if decide (j = i /\ jq = jp) then x else y).
Proof.
  intros d jp i x d' jq j y. unfold fd_set, fd_get, aget, aset.
  destruct (fdC d !! i) as [p|] eqn:E; cbn [obind]; [|done]. destruct (Nat.ltb_spec 4 jp); [done|].
  destruct (decide (i < length (fdC d))%nat) as [Hi|]; cbn [obind]; [|done]. intros [= <-]. cbn [fdC]. intros Hy.
  destruct (decide (j = i /\ jq = jp)) as [[-> ->]|N].
  - rewrite list_lookup_insert by done. cbn [obind].
    destruct jp as [|[|[|[|[|jp]]]]]; [..|lia]; reflexivity.
  - destruct (decide (j = i)) as [->|Hji].
    + rewrite list_lookup_insert by done. rewrite E in Hy. cbn [obind] in *.
      destruct jp as [|[|[|[|[|jp]]]]]; [..|lia]; destruct jq as [|[|[|[|[|jq]]]]]; simpl in *; intuition congruence.
    + rewrite list_lookup_insert_ne by done. exact Hy.
Qed.

Example fd_life_ex : exists d, fd_life 2 ((1, 2, 3, 4, 5) :: (0, 0, 0, 0, 0) :: nil) ((2%nat, 1%nat, 7) :: nil) = Ok d.
Proof. eexists. reflexivity. Qed.
Example cd_life_ex : exists d, cd_life 2 (fun _ => 3) ((1%nat, 7) :: nil) = Ok d.
Proof. eexists. reflexivity. Qed.
Example well_defined_ex : well_defined (V3 1 0 0) (V3 0 1 0) (V3 0 0 1).
Proof. unfold well_defined, normSq, cross, vdot; simpl. lra. Qed.
Example degenerate_ex : degenerate (V3 1 0 0) (V3 1 0 0) (V3 0 0 1).
Proof. unfold degenerate, normSq, cross, vdot; simpl. lra. Qed.

Print Assumptions cosine_dihedral_force_is_gradient.
Print Assumptions fourier_dihedral_force_is_gradient.
Print Assumptions fourier_dihedral_get_reports.
