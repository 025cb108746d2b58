(** Properties C51 and C61: molecular dynamics. *)
From stdpp Require Import gmap.
From Verif Require Import Base Vec3 BoxSpec OrthoModel OrthoSpec OrthoProofs OrthoProps MonoModel MonoSpec MonoProofs MonoProps.
From Verif Require Import McCellModel DomainModel DomainProofs SpeciesModel SpeciesProofs.
From Verif Require Import CellListModel CellListSpec CellListProofs CellListProps PairListModel PairListSpec PairListProofs PairListProps.
From Verif Require Import EnergyModel EnergySpec EnergyProofs MoveModel MoveSpec MoveProofs EnergyProps MoveProps MdModel MdSpec MdProofs MdForces.
From Coq Require Import Reals Lra.
Local Open Scope R_scope.

(** ** C61 *)

(** C61: MdSystem::calculateForces.  For either boundary, any masks, pair interaction, bonds, angles, dihedrals and external
    field, any earlier use of the pair list and any configuration whose atoms are less than one cell outside the cell: the
    call succeeds unless a cell or an array of the pair list is full; it moves atoms to images at most; and the force on every
    atom is then the sum over all other atoms not masked with it (whether or not they are in the list), over the groups it
    belongs to and of the external field.  Without a field the forces add up to zero. *)
Theorem md_forces_correct :
  forall y cap A Pc skin cut n pos F p,
  md_ok y cap skin cut n -> groups_ok y -> list_built y cap A Pc skin cut p -> nearby y pos ->
  (exists pos2 F2 p2, md_calc y pos F p = Ok (pos2, F2, p2) /\
     list_built y cap A Pc skin cut p2 /\ nearby y pos2 /\ same_images (bBrav (yB y)) (yAtoms y) pos pos2 /\
     (forall a, a ∈ yAtoms y -> F2 a = total_force y pos2 a) /\
     (yExt y = None -> vsum_over (yAtoms y) F2 = V3 0 0 0)) \/
  (md_calc y pos F p = Throw /\
     (crowded (bGen (yB y)) n (yM y) (yAtoms y) (fun a => bWrap (yB y) (pos a)) \/ (A < length (yAtoms y))%nat \/
      exists l, lists_close (bDist (yB y)) (yMask y) (cut + skin) (yAtoms y) (fun a => bWrap (yB y) (pos a)) l /\ (Pc < length l)%nat)).
Proof.
  intros y cap A Pc skin cut n pos F p Ho Hg Hb Hn.
  destruct (md_list_total y cap A Pc skin cut n Ho p pos Hb Hn) as [Hr|[Hr H]].
  - left. destruct (md_calc_total y cap A Pc skin cut n Ho p pos F Hg Hb Hn Hr) as [[[pos2 F2] p2] E]. exists pos2, F2, p2. split; [done|].
    destruct (md_calc_spec y cap A Pc skin cut n Ho p pos F pos2 F2 p2 Hg Hb Hn E) as (H1 & H2 & H3 & _ & H4).
    split; [done|]. split; [done|]. split; [done|]. split; [done|]. intros He.
    pose proof (total_force_balanced y cap skin cut n Ho pos2 Hg He) as HB. unfold balanced in HB.
    rewrite <- HB. apply vget_eq. intros c. rewrite !vget_sum. apply sum_ext. intros a Ha. by rewrite H4.
  - right. split; [|done]. unfold md_calc. by rewrite Hr.
Qed.

(** ** C51: momentum *)

(** The state after reading a configuration. *)
Lemma start_facts y cap A Pc skin cut n pos vel F p s :
  md_ok y cap skin cut n -> groups_ok y -> pl_state (yM y) cap A Pc skin cut p -> nearby y pos -> md_start y pos vel F p = Ok s ->
  list_built y cap A Pc skin cut (mX s) /\ (forall a, mVel s a = vel a) /\ nearby y (mPos s) /\
  (forall a, a ∈ yAtoms y -> mFrc s a = total_force y (mPos s) a).
Proof.
  intros Ho Hg Hst Hn. unfold md_start. intros ([pos1 p1] & Href & H)%obind_Ok. apply obind_Ok in H as ([[pos2 F2] p2] & Hc & [= <-]).
  cbn [mX mVel mPos mFrc].
  assert (Hb1 : list_built y cap A Pc skin cut p1) by (exists p, pos, pos1; done).
  assert (Hn1 : nearby y pos1).
  { destruct (boundary_facts _ (y_boundary y cap skin cut n Ho)) as [F1 F2' F3 F4 F6 F5]. pose proof (mo_cut _ _ _ _ _ Ho) as Hc0.
    assert (Hat' : forall a, a ∈ yAtoms y -> (a < cap)%nat /\ primary (bGen (yB y) (bWrap (yB y) (pos a)))).
    { intros a Ha. split; [by apply (mo_cap _ _ _ _ _ Ho)|]. by apply F5, Hn. }
    destruct (builds_general (yM y) cap A Pc _ _ _ _ (bBrav (yB y)) (yMask y) skin cut n (yAtoms y) pos p ltac:(lra) F1 F2' F3 Hst
      (mo_grid _ _ _ _ _ Ho) (mo_nodup _ _ _ _ _ Ho) Hat') as [(pos1' & p1' & l & E & Hp & _)|[E _]].
    - rewrite Href in E. injection E as <- <-. intros a Ha. rewrite Hp, decide_True by done. by apply (y_wrap y cap skin cut n Ho), Hn.
    - by rewrite Href in E. }
  destruct (md_calc_spec y cap A Pc skin cut n Ho p1 pos1 F pos2 F2 p2 Hg Hb1 Hn1 Hc) as (H1 & H2 & H3 & _ & H4). done.
Qed.
Lemma nve_calc_spec y cap A Pc skin cut n p pos F pos2 F2 p2 : md_ok y cap skin cut n -> groups_ok y ->
  list_built y cap A Pc skin cut p -> nearby y pos -> nve_calc y pos F p = Ok (pos2, F2, p2) ->
  list_built y cap A Pc skin cut p2 /\ same_images (bBrav (yB y)) (yAtoms y) pos pos2 /\
  forall a, a ∈ yAtoms y -> F2 a = total_force y pos2 a.
Proof.
  intros Ho Hg Hb Hn. unfold nve_calc. intros ([pos1 p1] & Hl & Hc)%obind_Ok.
  destruct (md_list_spec y cap A Pc skin cut n Ho p pos pos1 p1 Hb Hn Hl) as (Hb1 & Hn1 & Hs1 & _).
  destruct (md_calc_spec y cap A Pc skin cut n Ho p1 pos1 F pos2 F2 p2 Hg Hb1 Hn1 Hc) as (H1 & H2 & H3 & _ & H4).
  split; [done|]. split; [by eapply same_trans|done].
Qed.
Lemma nearby_ext y (p q : nat -> vec3 R) : (forall a, a ∈ yAtoms y -> p a = q a) -> nearby y p -> nearby y q.
Proof. intros E H a Ha. rewrite <- E by done. by apply H. Qed.

(** C51: momentum.  An MdSystem without external field is read in any configuration and makes any number of velocity-Verlet
    steps of any length with any forces, pair lists being rebuilt as needed; each step moves every atom by less than one cell.
    The total momentum does not change. *)
Theorem nve_momentum_conserved :
  forall y cap A Pc skin cut n pos vel F p s N s',
  md_ok y cap skin cut n -> groups_ok y -> yExt y = None -> (forall a, a ∈ yAtoms y -> yMass y (yTy y a) <> 0) ->
  pl_state (yM y) cap A Pc skin cut p -> nearby y pos -> md_start y pos vel F p = Ok s -> nve_run y N s = Ok s' ->
  (forall k t, (k < N)%nat -> nve_run y k s = Ok t -> nearby y (half_step y t)) ->
  let mass a := yMass y (yTy y a) in
  momentum mass (yAtoms y) (mVel s') = momentum mass (yAtoms y) vel.
Proof.
  intros y cap A Pc skin cut n pos vel F p s N s' Ho Hg He Hm Hst Hn Hs Hr Hhalf mass.
  destruct (start_facts y cap A Pc skin cut n pos vel F p s Ho Hg Hst Hn Hs) as (Hb & Hv & _ & HF).
  assert (HB : forall q G, (forall a, a ∈ yAtoms y -> G a = total_force y q a) -> balanced y G).
  { intros q G E. pose proof (total_force_balanced y cap skin cut n Ho q Hg He) as H. unfold balanced in *. rewrite <- H.
    apply vget_eq. intros c. rewrite !vget_sum. apply sum_ext. intros a Ha. by rewrite E. }
  destruct (run_momentum y (nve_calc y) (fun _ p => list_built y cap A Pc skin cut p) (nearby y) (mo_nodup _ _ _ _ _ Ho) (nearby_ext y) Hm) with (n := N) (s := s) (s' := s')
    as (_ & _ & E); [|done|by apply (HB (mPos s))|done|done|].
  - intros _ q G x q' G' x' Hx Hq Hc.
    destruct (nve_calc_spec y cap A Pc skin cut n x q G q' G' x' Ho Hg Hx Hq Hc) as (H1 & _ & H2). split; [done|]. by apply (HB q').
  - unfold mtm in E. fold mass in E. rewrite E. apply vget_eq. intros c. unfold momentum. rewrite !vget_sum. apply sum_ext. intros a _. by rewrite Hv.
Qed.

(** ** C51: reversal *)

(** Any system: if forces depend only on the positions up to lattice translations, running N steps, reversing the
    velocities and running N steps returns all atoms to images of their old positions with reversed velocities. *)
Theorem verlet_reversible :
  forall (X : Type) (y : mdsys) brav
         (calc : (nat -> vec3 R) -> (nat -> vec3 R) -> X -> outcome ((nat -> vec3 R) * (nat -> vec3 R) * X))
         (Force : (nat -> vec3 R) -> nat -> vec3 R) N s s' t,
  NoDup (yAtoms y) ->
  (forall p F x p' F' x', calc p F x = Ok (p', F', x') ->
     same_images brav (yAtoms y) p p' /\ forall a, a ∈ yAtoms y -> F' a = Force p' a) ->
  (forall p q, same_images brav (yAtoms y) p q -> forall a, a ∈ yAtoms y -> Force p a = Force q a) ->
  (forall a, a ∈ yAtoms y -> mFrc s a = Force (mPos s) a) ->
  vv_run y calc N s = Ok s' -> vv_run y calc N (reversed s') = Ok t ->
  same_images brav (yAtoms y) (mPos s) (mPos t) /\
  forall a, a ∈ yAtoms y -> mVel t a = vscale (-1) (mVel s a) /\ mFrc t a = mFrc s a.
Proof.
  intros X y brav calc Force N s s' t Hnd Hc Hp HF Hr Hb.
  destruct (run_back y brav calc Force (fun _ => True) (fun _ => True) (fun _ => True) Hnd) with (n := N) (s := s) (s' := s') (t := t) as [H _]; try done.
  - intros p F x p' F' x' _ _ E. split; [done|]. by eapply Hc.
  - intros p q _ _. apply Hp.
Qed.

(** Separations in an orthorhombic box do not depend on the images, except at half a length. *)
Section Periodic.
  Context (b : ortho) (Hb : a_box b).
  Definition in_range (p q : vec3 R) : Prop := forall i, (i < 3)%nat -> Rabs (vget p i - vget q i) <= 3/2 * vget (oLen b) i.
  Definition image (p p' : vec3 R) : Prop := exists m, p' = vadd p (lattice_vector (oBrav b) m).

  Lemma dr_images p q p' q' : image p p' -> image q q' -> in_range p q -> in_range p' q' ->
    (distanceSq_dr b p' q').1 = (distanceSq_dr b p q).1 /\
    (~ tied b p q -> (distanceSq_dr b p' q').2 = (distanceSq_dr b p q).2) /\
    (forall c, (forall i, (i < 3)%nat -> c <= vget (oLen b) i / 2) -> 0 <= c -> (distanceSq_dr b p q).1 < c * c ->
       (distanceSq_dr b p' q').2 = (distanceSq_dr b p q).2).
  Proof.
    intros (m & Em) (k & Ek) H1 H2. destruct (owf_a_box b Hb) as (l & lat & W). unfold distanceSq_dr, tied, in_range in *.
    rewrite !(sep_eq b l lat _ _ _ W) by lia. rewrite (w_len _ _ _ W) in *.
    assert (HA : forall i, (i < 3)%nat -> exists d d', (sep_axis (vget l i / 2) (vget l i) (vget p i) (vget q i)).1 = d /\
       (sep_axis (vget l i / 2) (vget l i) (vget p' i) (vget q' i)).1 = d' /\ d' * d' = d * d /\
       (d' = d \/ (d * d = vget l i / 2 * (vget l i / 2) /\ exists z, vget p i - vget q i + IZR z * vget l i = vget l i / 2))).
    { intros i Hi. pose proof (pos3_get l i (w_pos _ _ _ W)) as HL.
      destruct (sep_axis (vget l i / 2) (vget l i) (vget p i) (vget q i)) as [d z] eqn:E.
      destruct (sep_axis (vget l i / 2) (vget l i) (vget p' i) (vget q' i)) as [d' z'] eqn:E'.
      destruct (sep_axis_spec _ _ _ _ _ HL (H1 i Hi) E) as (Sd & Bd & _). destruct (sep_axis_spec _ _ _ _ _ HL (H2 i Hi) E') as (Sd' & Bd' & _).
      exists d, d'. split; [done|]. split; [done|].
      assert (Hk : exists j, d' = d + IZR j * vget l i).
      { exists (z' - z + vget m i - vget k i)%Z. rewrite Sd', Sd, Em, Ek, !vget_add, (w_brav _ _ _ W), !lattice_diag by done.
        rewrite minus_IZR, plus_IZR, minus_IZR. ring. }
      destruct Hk as [j Hj].
      assert (HB : forall x, Rabs x <= vget l i / 2 -> - (vget l i / 2) <= x <= vget l i / 2) by (intros x; unfold Rabs; destruct (Rcase_abs x); lra).
      apply HB in Bd, Bd'.
      destruct (Z.lt_trichotomy j 0) as [Hlt|[->|Hgt]].
      - assert (IZR j <= -1) by (apply (IZR_le j (-1)); lia).
        assert (d = vget l i / 2 /\ d' = - (vget l i / 2)) as [-> ->] by nra.
        split; [ring|]. right. split; [ring|]. exists z. lra.
      - replace d' with d by lra. split; [done|by left].
      - assert (1 <= IZR j) by (apply (IZR_le 1 j); lia).
        assert (d = - (vget l i / 2) /\ d' = vget l i / 2) as [-> ->] by nra.
        split; [ring|]. right. split; [ring|]. exists (z + 1)%Z. rewrite plus_IZR. lra. }
    destruct (HA 0%nat ltac:(lia)) as (d0 & e0 & -> & -> & Q0 & A0). destruct (HA 1%nat ltac:(lia)) as (d1 & e1 & -> & -> & Q1 & A1).
    destruct (HA 2%nat ltac:(lia)) as (d2 & e2 & -> & -> & Q2 & A2). cbn [fst snd]. split; [lra|].
    split.
    - intros Ht. f_equal; (match goal with |- ?x = ?y => idtac end).
      + destruct A0 as [|[_ [z Hz]]]; [done|]. exfalso. apply Ht. exists 0%nat, z. split; [lia|done].
      + destruct A1 as [|[_ [z Hz]]]; [done|]. exfalso. apply Ht. exists 1%nat, z. split; [lia|done].
      + destruct A2 as [|[_ [z Hz]]]; [done|]. exfalso. apply Ht. exists 2%nat, z. split; [lia|done].
    - intros c Hc Hc0 Hlt. pose proof (Rle_0_sqr d0) as S0. pose proof (Rle_0_sqr d1) as S1. pose proof (Rle_0_sqr d2) as S2. unfold Rsqr in *.
      assert (HX : forall i, (i < 3)%nat -> c * c <= vget l i / 2 * (vget l i / 2)) by (intros i Hi; specialize (Hc i Hi); nra).
      f_equal.
      + destruct A0 as [|[E _]]; [done|]. specialize (HX 0%nat ltac:(lia)). lra.
      + destruct A1 as [|[E _]]; [done|]. specialize (HX 1%nat ltac:(lia)). lra.
      + destruct A2 as [|[E _]]; [done|]. specialize (HX 2%nat ltac:(lia)). lra.
  Qed.
End Periodic.

(** The forces of the groups of a potential depend on separations of neighbouring atoms. *)
Definition geometric (y : mdsys) (k : fkind) : Prop :=
  (exists fr, fF k = bond_kF (yDr y) fr) \/ (exists f, fF k = angle_kF (yDr y) f) \/ (exists f, fF k = dihedral_kF (yDr y) f).
(** Configurations in which all separations are found, and neighbours in a group do not have two nearest images. *)
Definition regular (y : mdsys) (b : ortho) (pos : nat -> vec3 R) : Prop :=
  (forall i j, i ∈ yAtoms y -> j ∈ yAtoms y -> in_range b (pos i) (pos j)) /\
  (forall k m g l i j l', k ∈ yKinds y -> m ∈ kMols (fK k) -> g ∈ kGrp (fK k) m -> gAt g = l ++ i :: j :: l' -> ~ tied b (pos i) (pos j)).

Lemma total_force_images y b cap skin cut n p q : md_ok y cap skin cut n -> groups_ok y -> a_box b -> yDr y = distanceSq_dr b ->
  (forall i, (i < 3)%nat -> cut <= vget (oLen b) i / 2) -> (forall k, k ∈ yKinds y -> geometric y k) ->
  (forall f r m t, yExt y = Some f -> f (vadd r (lattice_vector (oBrav b) m)) t = f r t) ->
  regular y b p -> regular y b q -> same_images (oBrav b) (yAtoms y) p q ->
  forall a, a ∈ yAtoms y -> total_force y p a = total_force y q a.
Proof.
  intros Ho Hg Hb Hdr Hcut Hgeo Hext [Rp Tp] [Rq Tq] Hs a Ha. unfold total_force. f_equal; [f_equal|].
  - unfold pair_part. apply vget_eq. intros c. rewrite !vget_sum. apply sum_ext. intros j Hj. destruct (decide _); [done|].
    destruct (yMask y a j); [done|]. f_equal. unfold pair_force. rewrite Hdr.
    destruct (dr_images b Hb (p a) (p j) (q a) (q j) (Hs a Ha) (Hs j Hj) (Rp a j Ha Hj) (Rq a j Ha Hj)) as (E1 & _ & E3).
    specialize (E3 cut Hcut (Rlt_le _ _ (mo_cut _ _ _ _ _ Ho))). pose proof (mo_cutsq _ _ _ _ _ Ho (yTy y a) (yTy y j)) as Hc.
    destruct (distanceSq_dr b (p a) (p j)) as [d v]. destruct (distanceSq_dr b (q a) (q j)) as [d' v']. cbn [fst snd] in *. subst d'.
    destruct (Rlt_dec _ _) as [Hlt|]; [|done]. by rewrite E3 by lra.
  - unfold bonded_part. apply vget_eq. intros c. rewrite !vget_sum. apply sum_ext. intros k Hk. rewrite !vget_sum. apply sum_ext. intros m Hm.
    rewrite !vget_sum. apply sum_ext. intros g Hin. f_equal. f_equal. destruct (Hg k m g Hk Hm Hin) as [Hsub _].
    assert (HD : forall l i j l', gAt g = l ++ i :: j :: l' -> yDr y (p i) (p j) = yDr y (q i) (q j) /\ yDr y (p j) (p i) = yDr y (q j) (q i)).
    { intros l i j l' E. assert (Hi : i ∈ yAtoms y) by (apply Hsub; rewrite E; apply elem_of_app; right; left).
      assert (Hj : j ∈ yAtoms y) by (apply Hsub; rewrite E; apply elem_of_app; right; right; left).
      assert (E' : yDr y (p i) (p j) = yDr y (q i) (q j)).
      { rewrite Hdr. destruct (dr_images b Hb (p i) (p j) (q i) (q j) (Hs i Hi) (Hs j Hj) (Rp i j Hi Hj) (Rq i j Hi Hj)) as (E1 & E2 & _).
        specialize (E2 (Tp k m g l i j l' Hk Hm Hin E)).
        destruct (distanceSq_dr b (p i) (p j)) as [d v]. destruct (distanceSq_dr b (q i) (q j)) as [d' v']. cbn [fst snd] in *. congruence. }
      split; [done|]. rewrite (y_dr_sym y cap skin cut n Ho (p i) (p j)), (y_dr_sym y cap skin cut n Ho (q i) (q j)), E'. done. }
    destruct (Hgeo k Hk) as [[f ->]|[[f ->]|[f ->]]].
    + unfold bond_kF. destruct (gAt g) as [|i [|j [|]]]; try done. cbn [map]. destruct (HD [] i j [] eq_refl) as [-> _]. done.
    + unfold angle_kF. destruct (gAt g) as [|i [|j [|h [|]]]]; try done. cbn [map]. destruct (HD [] i j [h] eq_refl) as [_ ->].
      destruct (HD [i] j h [] eq_refl) as [_ ->]. done.
    + unfold dihedral_kF. destruct (gAt g) as [|i [|j [|h [|h' [|]]]]]; try done. cbn [map]. destruct (HD [] i j [h; h'] eq_refl) as [_ ->].
      destruct (HD [i] j h [h'] eq_refl) as [_ ->]. destruct (HD [i; j] h h' [] eq_refl) as [_ ->]. done.
  - unfold external_part. destruct (yExt y) as [f|]; [|done]. destruct (Hs a Ha) as [m ->]. symmetry. by apply Hext.
Qed.

(** The hypotheses on a run: every step moves atoms by less than a cell and ends in a regular configuration. *)
Definition steady (y : mdsys) (b : ortho) (N : nat) (s : mds plist) : Prop :=
  forall k t, (k <= N)%nat -> nve_run y k s = Ok t -> ((k < N)%nat -> nearby y (half_step y t)) /\ regular y b (mPos t).

(** C51: reversal of an MdSystem in an orthorhombic box at least twice the cutoff wide, with any pair interaction, bonds,
    angles, dihedrals and periodic external field.  The pair lists of the two runs need not be rebuilt at the same steps, so
    positions return up to lattice translations. *)
Theorem nve_reversible :
  forall y b cap A Pc skin cut n pos vel F p s N s' t,
  md_ok y cap skin cut n -> groups_ok y -> a_box b -> yB y = ortho_bd b -> yDr y = distanceSq_dr b ->
  (forall i, (i < 3)%nat -> cut <= vget (oLen b) i / 2) -> (forall k, k ∈ yKinds y -> geometric y k) ->
  (forall f r m t, yExt y = Some f -> f (vadd r (lattice_vector (oBrav b) m)) t = f r t) ->
  pl_state (yM y) cap A Pc skin cut p -> nearby y pos -> md_start y pos vel F p = Ok s ->
  nve_run y N s = Ok s' -> nve_run y N (reversed s') = Ok t ->
  steady y b N s -> steady y b N (reversed s') ->
  same_images (oBrav b) (yAtoms y) (mPos s) (mPos t) /\
  forall a, a ∈ yAtoms y -> mVel t a = vscale (-1) (vel a) /\ mFrc t a = mFrc s a.
Proof.
  intros y b cap A Pc skin cut n pos vel F p s N s' t Ho Hg Hb HB Hdr Hcut Hgeo Hext Hst Hn Hs Hr Hr' S1 S2.
  destruct (start_facts y cap A Pc skin cut n pos vel F p s Ho Hg Hst Hn Hs) as (Hbl & Hv & _ & HF).
  destruct (run_back y (oBrav b) (nve_calc y) (total_force y) (list_built y cap A Pc skin cut) (nearby y) (regular y b) (mo_nodup _ _ _ _ _ Ho) (nearby_ext y))
    with (n := N) (s := s) (s' := s') (t := t) as [[H1 H2] _]; try done.
  - intros q G x q' G' x' Hx Hq Hc. destruct (nve_calc_spec y cap A Pc skin cut n x q G q' G' x' Ho Hg Hx Hq Hc) as (E1 & E2 & E3).
    rewrite HB in E2. done.
  - intros q q' Hq Hq' Hsm. by apply (total_force_images y b cap skin cut n).
  - split; [done|]. split; [|done]. by apply (S1 0%nat s); [lia|].
  - split; [done|]. intros a Ha. destruct (H2 a Ha) as [-> ->]. by rewrite Hv.
Qed.

(** ** Examples *)

(** A step during which the pair list stays current. *)
Lemma step_current y cap A Pc skin cut n (s : mds plist) : md_ok y cap skin cut n -> groups_ok y -> list_built y cap A Pc skin cut (mX s) ->
  nearby y (half_step y s) -> (forall q, (forall a, a ∈ yAtoms y -> q a = half_step y s a) -> pl_isCurrent (bDist (yB y)) q (mX s) = Ok true) ->
  exists s', vv_step y (nve_calc y) s = Ok s' /\ mX s' = mX s /\ forall a, a ∈ yAtoms y ->
    mPos s' a = half_step y s a /\ mFrc s' a = total_force y (mPos s') a /\
    mVel s' a = vadd (vadd (mVel s a) (vscale (prefactor y a) (mFrc s a))) (vscale (prefactor y a) (mFrc s' a)).
Proof.
  intros Ho Hg Hb Hn Hcur. pose proof (integrate1_spec y (mFrc s) (mPos s) (mVel s) (mo_nodup _ _ _ _ _ Ho) _ eq_refl) as H1.
  unfold vv_step. destruct (integrate1 y (mFrc s) (mPos s, mVel s)) as [pos1 vel1]. cbn [fst snd] in H1.
  assert (E : forall a, a ∈ yAtoms y -> pos1 a = half_step y s a).
  { intros a Ha. destruct (proj1 (H1 a) Ha) as [E1 ->]. rewrite E1. unfold half_step, prefactor. f_equal. f_equal. f_equal. f_equal.
    unfold Rdiv. rewrite Rinv_mult. lra. }
  assert (Hn1 : nearby y pos1) by (intros a Ha; rewrite E by done; by apply Hn).
  assert (HL : md_list y pos1 (mX s) = Ok (pos1, mX s)).
  { unfold md_list, md_update. rewrite (Hcur pos1 E). done. }
  destruct (md_calc_total y cap A Pc skin cut n Ho (mX s) pos1 (mFrc s) Hg Hb Hn1 ltac:(eauto)) as [[[q G] x] Hc].
  assert (q = pos1 /\ x = mX s) as [-> ->].
  { revert Hc. unfold md_calc. rewrite HL. cbn [obind]. intros (o & _ & H)%obind_Ok. destruct o as [F1|]; [|done]. by injection H as <- _ <-. }
  destruct (md_calc_spec y cap A Pc skin cut n Ho _ _ _ _ _ _ Hg Hb Hn1 Hc) as (_ & _ & _ & _ & HF).
  unfold nve_calc. rewrite HL. cbn [obind]. rewrite Hc. cbn [obind]. eexists. split; [done|]. cbn [mX mPos mFrc mVel]. split; [done|].
  intros a Ha. split; [by apply E|]. split; [by apply HF|]. rewrite integrate2_spec by apply (mo_nodup _ _ _ _ _ Ho). rewrite decide_True by done.
  by destruct (proj1 (H1 a) Ha) as [-> _].
Qed.

(** Two atoms that repel each other through a face of a cubic box of length 10. *)
Definition ex_y : mdsys :=
  MS 61 (ortho_bd ex_box) (distanceSq_dr ex_box) (fun _ _ => false) (fun _ _ _ => 1) (fun _ _ => 1) [] None
     [0; 1]%nat (fun _ => 0%Z) (fun _ => 1) (1/10).
Definition ex_vel (a : nat) : vec3 R := if decide (a = 0)%nat then V3 1 0 0 else V3 (-1) 0 0.

Lemma ex_ok : md_ok ex_y 2 (1/2) 1 (V3 6 6 6)%Z.
Proof.
  destruct ex_wf as [lat W]. split; cbn [ex_y yB yDr yCutsq yFr yMask yAtoms].
  - left. exists ex_box. split; [apply ex_a_box|done].
  - lra.
  - intros. lra.
  - done.
  - done.
  - cbn [ortho_bd bLens]. exact (ex_grid _ _ _ W eq_refl).
  - apply (bool_decide_eq_true_1 (NoDup _)). reflexivity.
  - intros a Ha. rewrite !elem_of_cons, elem_of_nil in Ha. lia.
Qed.
Lemma ex_near_x x : -10 <= x < 20 -> near_cell_of (oBrav ex_box) (V3 x 1 1).
Proof.
  destruct ex_wf as [lat W]. intros Hx. rewrite (w_brav _ _ _ W). exists (vscale (1/10) (V3 x 1 1)). split.
  - unfold combo, vadd, vscale, diag. cbn. f_equal; lra.
  - intros i Hi. destruct i as [|[|[|]]]; try lia; cbn; lra.
Qed.
Lemma ex_force (pos : nat -> vec3 R) x0 x1 : pos 0%nat = V3 x0 1 1 -> pos 1%nat = V3 x1 1 1 -> 5 < x1 - x0 -> 0 < x0 - x1 + 10 < 1 ->
  total_force ex_y pos 0%nat = V3 (x0 - x1 + 10) 0 0 /\ total_force ex_y pos 1%nat = V3 (- (x0 - x1 + 10)) 0 0.
Proof.
  destruct ex_wf as [lat W]. intros E0 E1 H1 H2.
  assert (D : distanceSq_dr ex_box (V3 x0 1 1) (V3 x1 1 1) = ((x0 - x1 + 10) * (x0 - x1 + 10), V3 (x0 - x1 + 10) 0 0)).
  { unfold distanceSq_dr. rewrite !(sep_eq _ _ _ _ _ _ W) by lia. cbn [vget vx vy vz].
    rewrite sep_lo by (try lra; rewrite Rabs_left by lra; lra). rewrite !sep_in by (apply Rabs_le; lra). cbn [fst]. f_equal; [lra|]. f_equal; lra. }
  assert (D' : distanceSq_dr ex_box (V3 x1 1 1) (V3 x0 1 1) = ((x0 - x1 + 10) * (x0 - x1 + 10), V3 (- (x0 - x1 + 10)) 0 0)).
  { rewrite (ortho_dr_sym ex_box (V3 x0 1 1) (V3 x1 1 1) ex_a_box), D. cbn [fst snd]. unfold vscale. cbn [vx vy vz]. f_equal. f_equal; ring. }
  unfold total_force, pair_part, bonded_part, external_part. cbn [ex_y yExt yKinds yAtoms yMask yDr yFr yCutsq].
  assert (Hlt : (x0 - x1 + 10) * (x0 - x1 + 10) < 1) by nra.
  split; apply vget_eq; intros c; rewrite !vget_add, !vget_sum, sum_nil, vget_zero; unfold sum_over; cbn [map Rsum].
  - rewrite decide_True by done. rewrite decide_False by done. rewrite E0, E1. unfold pair_force. rewrite D. destruct (Rlt_dec _ _); [|lra].
    rewrite vget_zero, vget_scale. lra.
  - rewrite decide_False by done. rewrite decide_True by done. rewrite E0, E1. unfold pair_force. rewrite D'. destruct (Rlt_dec _ _); [|lra].
    rewrite vget_zero, vget_scale. lra.
Qed.

(** The hypotheses of the three theorems hold; one step takes atom 0 from x = 1/5 to 303/1000, and back. *)
Example nve_example :
  exists p s s' t,
  md_ok ex_y 2 (1/2) 1 (V3 6 6 6)%Z /\ groups_ok ex_y /\ pl_state 61 2 2 1 (1/2) 1 p /\ nearby ex_y ex_pos /\
  md_start ex_y ex_pos ex_vel (fun _ => V3 7 7 7) p = Ok s /\ list_built ex_y 2 2 1 (1/2) 1 (mX s) /\
  nve_run ex_y 1 s = Ok s' /\ nve_run ex_y 1 (reversed s') = Ok t /\ steady ex_y ex_box 1 s /\ steady ex_y ex_box 1 (reversed s') /\
  mPos s 0%nat = V3 (1/5) 1 1 /\ mPos s' 0%nat = V3 (303/1000) 1 1 /\ mPos t 0%nat = V3 (1/5) 1 1 /\
  mVel s' 0%nat <> mVel s 0%nat /\ mVel t 0%nat = V3 (-1) 0 0.
Proof.
  destruct ex_wf as [lat W]. pose proof ex_ok as Ho.
  assert (Hg : groups_ok ex_y) by (intros k m g Hk; by apply elem_of_nil in Hk).
  assert (Hn0 : nearby ex_y ex_pos) by (intros a _; apply ex_near).
  destruct (init_state 61 2 2 1 (1/2) 1 ltac:(lia) ltac:(lia) ltac:(lia) ltac:(lra)) as (p & Hp & Hst). exists p.
  (* the list is built for atoms 0 at 1/5 and 1 at 48/5 *)
  assert (Hat : forall a, a ∈ [0; 1]%nat -> (a < 2)%nat /\ near_cell_of (oBrav ex_box) (ex_pos a)).
  { intros a Ha. split; [rewrite !elem_of_cons, elem_of_nil in Ha; lia|apply ex_near]. }
  pose proof (boundary_facts _ (y_boundary _ _ _ _ _ Ho)) as [F1 F2 F3 F4 F6 F5]. cbn [ex_y yB] in F1, F2, F3, F4, F5, F6.
  assert (Hat' : forall a, a ∈ [0; 1]%nat -> (a < 2)%nat /\ primary (bGen (ortho_bd ex_box) (bWrap (ortho_bd ex_box) (ex_pos a)))).
  { intros a Ha. split; [by apply Hat|]. by apply F5, Hat. }
  assert (HR : exists pos1 p1, pl_refresh 61 (bGen (ortho_bd ex_box)) (bDist (ortho_bd ex_box)) (bWrap (ortho_bd ex_box)) (bLens (ortho_bd ex_box)) (fun _ _ => false) [0; 1]%nat ex_pos p = Ok (pos1, p1) /\
     forall a, a ∈ [0; 1]%nat -> pos1 a = shift1 ex_box (ex_pos a)).
  { destruct (builds_general 61 2 2 1 _ _ _ _ (oBrav ex_box) (fun _ _ => false) (1/2) 1 (V3 6 6 6)%Z [0; 1]%nat ex_pos p ltac:(lra) F1 F2 F3 Hst
      (mo_grid _ _ _ _ _ Ho) (mo_nodup _ _ _ _ _ Ho) Hat') as [(pos1 & p1 & l & E & Hpp & _)|(_ & [Hbad|[Hbad|(l & [Hnd Hcl] & Hbad)]])].
    - exists pos1, p1. split; [done|]. intros a Ha. rewrite Hpp. by rewrite decide_True.
    - by apply few_not_crowded in Hbad; [|cbn; lia].
    - cbn in Hbad. lia.
    - exfalso. assert (l ⊆ [(0, 1)%nat]) as Hsub.
      { intros [i j] Hx. apply Hcl in Hx as (Hi & Hj & Hlt & _). cbn [fst snd] in *. rewrite !elem_of_cons, elem_of_nil in Hi, Hj.
        apply elem_of_list_singleton. f_equal; lia. }
      pose proof (submseteq_length _ _ (NoDup_submseteq l _ Hnd Hsub)). cbn in *. lia. }
  destruct HR as (pos1 & p1 & Href & Hpos1).
  assert (Q0 : pos1 0%nat = V3 (1/5) 1 1) by (rewrite Hpos1, ex_wrap by (rewrite !elem_of_cons; tauto); done).
  assert (Q1 : pos1 1%nat = V3 (48/5) 1 1) by (rewrite Hpos1, ex_wrap by (rewrite !elem_of_cons; tauto); done).
  assert (Hb1 : list_built ex_y 2 2 1 (1/2) 1 p1) by (exists p, ex_pos, pos1; done).
  assert (Hcur : forall q x0 x1, q 0%nat = V3 x0 1 1 -> q 1%nat = V3 x1 1 1 -> Rabs (x0 - 1/5) <= 1/4 -> Rabs (x1 - 48/5) <= 1/4 ->
     pl_isCurrent (distanceSq ex_box) q p1 = Ok true).
  { intros q x0 x1 E0 E1 H0 H1.
    destruct (current_general 61 2 2 1 _ _ _ _ (oBrav ex_box) (fun _ _ => false) (1/2) 1 (V3 6 6 6)%Z [0; 1]%nat ex_pos p pos1 p1 ltac:(lra) F1 F2 F3 Hst
      (mo_grid _ _ _ _ _ Ho) (mo_nodup _ _ _ _ _ Ho) Hat' ltac:(intros r' q' m A1 A2 A3; apply (y_min _ _ _ _ _ Ho r' q' m A1 A2 A3); lra) Href q) as (c & Hc & Hiff & _).
    cbn [ortho_bd bDist] in Hc. rewrite Hc. f_equal. apply Hiff. cbn [ortho_bd bDist].
    assert (B : forall x c', Rabs (x - c') <= 1/4 -> distanceSq ex_box (V3 x 1 1) (V3 c' 1 1) <= 1/2/2 * (1/2/2)).
    { intros x c' Hx. rewrite (ex_dist _ _ _ _ _ _ _ _ eq_refl eq_refl). rewrite sep_in by lra. rewrite !sep_in by (apply Rabs_le; lra). cbn [fst].
      assert (- (1/4) <= x - c' <= 1/4) by (revert Hx; unfold Rabs; destruct (Rcase_abs _); lra). nra. }
    intros a Ha. rewrite !elem_of_cons, elem_of_nil in Ha. destruct Ha as [->|[->|[]]].
    - rewrite E0, Q0. by apply B.
    - rewrite E1, Q1. by apply B. }
  assert (A01 : forall (P : nat -> Prop), (forall a, a ∈ [0; 1]%nat -> P a) <-> P 0%nat /\ P 1%nat).
  { intros P. split; [intros H; split; apply H; rewrite !elem_of_cons; tauto|]. intros [H0 H1] a Ha. rewrite !elem_of_cons, elem_of_nil in Ha.
    by destruct Ha as [->|[->|[]]]. }
  (* start *)
  assert (Hn1 : nearby ex_y pos1).
  { refine (proj2 (A01 (fun a => near_cell_of (oBrav ex_box) (pos1 a))) _). rewrite Q0, Q1. split; apply ex_near_x; lra. }
  assert (HL : md_list ex_y pos1 p1 = Ok (pos1, p1)).
  { unfold md_list, md_update. cbn [ex_y yB ortho_bd bDist]. rewrite (Hcur pos1 _ _ Q0 Q1); [done|rewrite Rminus_diag_eq, Rabs_R0; lra..]. }
  destruct (md_calc_total ex_y 2 2 1 (1/2) 1 _ Ho p1 pos1 (fun _ => V3 7 7 7) Hg Hb1 Hn1 ltac:(eauto)) as [[[q G] x] Hc].
  assert (q = pos1 /\ x = p1) as [-> ->].
  { revert Hc. unfold md_calc. rewrite HL. cbn [obind]. intros (o & _ & H)%obind_Ok. destruct o as [F0|]; [|done]. by injection H as <- _ <-. }
  destruct (md_calc_spec ex_y 2 2 1 (1/2) 1 _ Ho _ _ _ _ _ _ Hg Hb1 Hn1 Hc) as (_ & _ & _ & _ & HF).
  destruct (ex_force pos1 _ _ Q0 Q1) as [G0 G1]; [lra|lra|].
  set (s := Mds pos1 ex_vel G p1). exists s.
  assert (Hs : md_start ex_y ex_pos ex_vel (fun _ => V3 7 7 7) p = Ok s).
  { unfold md_start. cbn [ex_y yM yB yMask yAtoms]. rewrite Href. cbn [obind]. fold ex_y. rewrite Hc. done. }
  pose proof (proj1 (A01 _) HF) as [HF0 HF1].
  assert (P0 : half_step ex_y s 0%nat = V3 (303/1000) 1 1).
  { unfold half_step. cbn [mPos mVel mFrc s ex_y yDt yMass yTy]. rewrite Q0, HF0, G0. unfold ex_vel. rewrite decide_True by done.
    unfold vadd, vscale. cbn [vx vy vz]. f_equal; lra. }
  assert (P1 : half_step ex_y s 1%nat = V3 (9497/1000) 1 1).
  { unfold half_step. cbn [mPos mVel mFrc s ex_y yDt yMass yTy]. rewrite Q1, HF1, G1. unfold ex_vel. rewrite decide_False by done.
    unfold vadd, vscale. cbn [vx vy vz]. f_equal; lra. }
  assert (Nh : nearby ex_y (half_step ex_y s)).
  { refine (proj2 (A01 (fun a => near_cell_of (oBrav ex_box) (half_step ex_y s a))) _). rewrite P0, P1. split; apply ex_near_x; lra. }
  assert (AB : forall z, - (1/4) <= z <= 1/4 -> Rabs z <= 1/4) by (intros; by apply Rabs_le).
  destruct (step_current ex_y 2 2 1 (1/2) 1 _ s Ho Hg Hb1 Nh) as (s' & Es & Xs & Hs').
  { intros q Hq. pose proof (proj1 (A01 _) Hq) as [E0 E1]. rewrite P0 in E0. rewrite P1 in E1. apply (Hcur q _ _ E0 E1); apply AB; lra. }
  pose proof (proj1 (A01 _) Hs') as [(R0 & RF0 & RV0) (R1 & RF1 & RV1)]. rewrite P0 in R0. rewrite P1 in R1.
  destruct (ex_force _ _ _ R0 R1) as [I0 I1]; [lra|lra|].
  cbn [s mVel mFrc] in RV0, RV1. rewrite HF0, G0, RF0, I0 in RV0. rewrite HF1, G1, RF1, I1 in RV1.
  assert (V0 : mVel s' 0%nat = V3 (10703/10000) 0 0).
  2: assert (V1 : mVel s' 1%nat = V3 (- (10703/10000)) 0 0).
  1,2: rewrite ?RV0, ?RV1; unfold ex_vel; rewrite ?decide_True, ?decide_False by done; unfold prefactor, vadd, vscale; cbn [ex_y yDt yMass vx vy vz]; f_equal; lra.
  exists s'.
  assert (Hr : nve_run ex_y 1 s = Ok s') by (unfold nve_run; cbn [vv_run]; by rewrite Es).
  set (r := reversed s').
  assert (P0' : half_step ex_y r 0%nat = V3 (1/5) 1 1).
  { unfold half_step, r, reversed. cbn [mPos mVel mFrc ex_y yDt yMass yTy]. rewrite R0, RF0, I0, V0.
    unfold vadd, vscale. cbn [vx vy vz]. f_equal; lra. }
  assert (P1' : half_step ex_y r 1%nat = V3 (48/5) 1 1).
  { unfold half_step, r, reversed. cbn [mPos mVel mFrc ex_y yDt yMass yTy]. rewrite R1, RF1, I1, V1.
    unfold vadd, vscale. cbn [vx vy vz]. f_equal; lra. }
  assert (Nh' : nearby ex_y (half_step ex_y r)).
  { refine (proj2 (A01 (fun a => near_cell_of (oBrav ex_box) (half_step ex_y r a))) _). rewrite P0', P1'. split; apply ex_near_x; lra. }
  assert (Hbr : list_built ex_y 2 2 1 (1/2) 1 (mX r)) by (unfold r, reversed; cbn [mX]; by rewrite Xs).
  destruct (step_current ex_y 2 2 1 (1/2) 1 _ r Ho Hg Hbr Nh') as (t & Et & Xt & Ht).
  { intros q Hq. pose proof (proj1 (A01 _) Hq) as [E0 E1]. rewrite P0' in E0. rewrite P1' in E1. unfold r, reversed. cbn [mX]. rewrite Xs.
    apply (Hcur q _ _ E0 E1); apply AB; lra. }
  pose proof (proj1 (A01 _) Ht) as [(T0 & TF0 & TV0) (T1 & TF1 & TV1)]. rewrite P0' in T0. rewrite P1' in T1.
  destruct (ex_force _ _ _ T0 T1) as [J0 J1]; [lra|lra|].
  exists t.
  assert (Hr' : nve_run ex_y 1 r = Ok t) by (unfold nve_run; cbn [vv_run]; by rewrite Et).
  assert (REG : forall q x0 x1, q 0%nat = V3 x0 1 1 -> q 1%nat = V3 x1 1 1 -> 0 < x0 < 10 -> 0 < x1 < 10 -> regular ex_y ex_box q).
  { intros q x0 x1 E0 E1 H0 H1. split; [|intros k m g l i j l' Hk; by apply elem_of_nil in Hk].
    intros i j Hi Hj c Hcc. rewrite (w_len _ _ _ W). cbn [ex_y yAtoms] in Hi, Hj. rewrite !elem_of_cons, elem_of_nil in Hi, Hj.
    apply Rabs_le. destruct Hi as [->|[->|[]]], Hj as [->|[->|[]]]; rewrite ?E0, ?E1; destruct c as [|[|[|]]]; try lia; cbn [vget vx vy vz]; lra. }
  split; [done|]. split; [done|]. split; [done|]. split; [done|]. split; [done|]. split; [done|]. split; [done|]. split; [done|].
  split.
  { intros [|[|k]] u Hk Hu; [| |lia].
    - injection Hu as <-. split; [done|]. apply (REG _ _ _ Q0 Q1); lra.
    - rewrite Hr in Hu. injection Hu as <-. split; [lia|]. apply (REG _ _ _ R0 R1); lra. }
  split.
  { fold r. intros [|[|k]] u Hk Hu; [| |lia].
    - injection Hu as <-. split; [done|]. apply (REG _ _ _ R0 R1); lra.
    - rewrite Hr' in Hu. injection Hu as <-. split; [lia|]. apply (REG _ _ _ T0 T1); lra. }
  split; [done|]. split; [done|]. split; [done|]. split.
  { rewrite V0. cbn [s mVel]. unfold ex_vel. rewrite decide_True by done. intros [= H]. lra. }
  rewrite TV0, TF0, J0. unfold r, reversed. cbn [mVel mFrc]. rewrite V0, RF0, I0. unfold prefactor, vadd, vscale. cbn [ex_y yDt yMass vx vy vz]. f_equal; lra.
Qed.

Print Assumptions md_forces_correct.
Print Assumptions nve_momentum_conserved.
Print Assumptions verlet_reversible.
Print Assumptions nve_reversible.
