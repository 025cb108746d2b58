(** Energies, stresses and forces of covalent groups of the parallel program: main theorems. *)
From Verif Require Import Base Containers Vec3 OrthoModel BoxSpec OrthoSpec MonoModel MonoSpec PlanModel DomainModel SpeciesModel SpeciesProofs EnergySpec EnergyProofs AngleModel DihedralModel NbrModel ExchModel ExchSpec ExchUpdSpec ExchProofs ExchStart ExchLinks ExchGhost ExchCopies ExchFinal ExchProps GExchAtoms GExchOrigin GExchGhosts GExchTotal ExchUpdate GExchModel GExchSpec GExchReach GExchProps DdPairModel DdPairSpec DdPairExch DdPairProofs DdPairRuns DdPairTotal DdPairProps DdGroupModel DdGroupSpec DdGroupProofs DdGroupTotal.
From Coq Require Import Reals Lra.
Local Open Scope nat_scope.

(** Atoms of groups are still there after the exchange. *)
Lemma populated_kept dims s G gs0 gs : group_system dims G gs0 -> gexchange s gs0 = Ok gs -> populated G (map gpX gs0) -> populated G (map gpX gs).
Proof.
  intros HG H HP b id Hb Hid. destruct (HP b id Hb Hid) as (u & Hu & E). pose proof (gs_grid _ _ (gy_grid _ _ _ HG)) as Hd. unfold gexchange in H. destruct (gexchangeAtoms s gs0) as [sys1| |] eqn:H1; try discriminate. cbn [obind] in H.
  destruct (find_result dims s G gs0 sys1 HG H1 gs H) as [HE HF]. destruct (gexchange_atoms_raw dims G s gs0 HG sys1 H1) as (mid & xs & _ & E1 & HX & Exs & HM & HR & HRm & HI & HRd & _).
  destruct (exchange_ghosts_ready dims Hd _ _ HRd HE) as (GI & HT & ED & _ & EH & EP). pose proof (held1_perm dims s G gs0 sys1 HG H1) as X.
  assert (Hin : id ∈ map (fun u => xId u.2) (held (map gpX sys1))). { rewrite X. apply elem_of_map. eauto. }
  rewrite <- EH in Hin. apply elem_of_map in Hin as (v & E' & Hv). eauto.
Qed.

Section after_exchange.
  Context (dims : vec3 Z) (m s : vec3 R) (G : list bond) (gs0 gs : list gproc).
  Context (HG : group_system dims G gs0) (HD : displaced dims m (map gpX gs0)) (HS : slabs dims m s) (HP : populated G (map gpX gs0)) (HE : gexchange s gs0 = Ok gs).
  Context (A : nat -> vec3 R) (sh : vec3 R -> nat -> Z -> vec3 R) (toGen : vec3 R -> vec3 R) (dsq : vec3 R -> vec3 R -> R) (dsr : vec3 R -> vec3 R -> R * vec3 R) (ml : R).
  Context (HM : a_metric A toGen dsq dsr ml) (Hsh : lattice_shift A sh).
  Context (s2 sys2 : list xproc) (H2 : same_lists (map gpX gs) s2).
  Context (Hk : forall a, a ∈ local_addrs (map gpX gs) \/ a ∈ ghost_addrs (map gpX gs) -> xId (mem_at s2 a) = xId (mem_at (map gpX gs) a) /\ xType (mem_at s2 a) = xType (mem_at (map gpX gs) a)).
  Context (HU : update sh s2 = Ok sys2).
  Context (pos : Z -> vec3 R) (d : Z -> Z -> vec3 R) (kB kA kD : nat) (Hpos : positions sys2 pos) (HSe : separations A ml pos G d) (HC : DdGroupSpec.compact toGen sys2) (HSh : shaped kB kA kD G).
  Context (bu bfo : R -> Z -> R) (ae : R -> Z -> R) (af : vec3 R -> vec3 R -> Z -> vec3 R * vec3 R).
  Context (de : vec3 R -> vec3 R -> vec3 R -> Z -> R) (df : vec3 R -> vec3 R -> vec3 R -> Z -> vec3 (vec3 R)) (xe : vec3 R -> Z -> R) (xf : vec3 R -> Z -> vec3 R).
  Lemma state_of : exists own, in_place dims s (map gpX gs) /\ linked (map gpX gs) own /\ follows A own (map gpX gs) sys2 /\ NoDup (map bkey G) /\ NoDup (map (fun u => xId u.2) (held (map gpX gs))) /\ populated G (map gpX gs) /\ Forall (groups_ok G) gs /\ Forall points_all gs.
  Proof.
    destruct (gexchange_in_place dims m s G gs0 gs HG HD HS HE) as (HI & own & HL). destruct (update_follows A sh own _ s2 HL Hsh H2 Hk) as (s3 & E3 & HFo & _). rewrite HU in E3. injection E3 as <-.
    destruct (groups_kept dims G s gs0 gs HG HE) as [HG2 HA]. exists own. split; [done|]. split; [done|]. split; [done|]. split; [apply HG|]. split; [apply HG2|]. split; [exact (populated_kept dims s G gs0 gs HG HE HP)|]. split; [apply HG2|done].
  Qed.
  (** C78: energies and stresses. *)
  Theorem dd_group_energies :
    reduce_groups (bond_energy dsq bu kB) (map gpGroups gs) sys2 = Ok (sum_over (kind_bonds kB G) (bond_u d bu)) /\
    reduce_groups (angle_energy dsr ae kA) (map gpGroups gs) sys2 = Ok (sum_over (kind_bonds kA G) (angle_u d ae)) /\
    reduce_groups (dihedral_energy dsr de kD) (map gpGroups gs) sys2 = Ok (sum_over (kind_bonds kD G) (dihedral_u d de)).
  Proof.
    destruct state_of as (own & H1 & H3 & H4 & H5 & H6 & H7 & H8 & H9). split; [|split].
    - by eapply total_bond_energy.
    - by eapply total_angle_energy.
    - by eapply total_dihedral_energy.
  Qed.
  Theorem dd_group_stress i j :
    reduce_groups (bond_stress dsr bfo i j kB) (map gpGroups gs) sys2 = Ok (sum_over (kind_bonds kB G) (bond_w d bfo i j)) /\
    reduce_groups (angle_stress dsr af i j kA) (map gpGroups gs) sys2 = Ok (sum_over (kind_bonds kA G) (angle_w d af i j)).
  Proof.
    destruct state_of as (own & H1 & H3 & H4 & H5 & H6 & H7 & H8 & H9). split.
    - by eapply total_bond_stress.
    - by eapply total_angle_stress.
  Qed.
  (** C80: what is computed for dihedrals instead. *)
  Theorem dd_dihedral_stress_of i j : reduce_groups (dihedral_stress dsr df i j kD) (map gpGroups gs) sys2 = Ok (sum_over (kind_bonds kD G) (dihedral_w d (fun d1 d2 _ => df d1 d2 d2) i j)).
  Proof. destruct state_of as (own & H1 & H3 & H4 & H5 & H6 & H7 & H8 & H9). by eapply total_dihedral_stress. Qed.
  (** External potential: every atom once. *)
  Lemma external_energy_sum q : external_energy xe q = sum_over (locals q) (fun a => xe (xPos a) (xType a)).
  Proof. unfold external_energy, locals. rewrite sum_map. rewrite (fold_sum (fun h => xe (xPos (xpMem q h)) (xType (xpMem q h)))). lra. Qed.
  Theorem dd_external_energy : reduce_groups (fun _ q => Ok (external_energy xe q)) (map gpGroups gs) sys2 = Ok (sum_over (local_addrs sys2) (fun a => xe (xPos (mem_at sys2 a)) (xType (mem_at sys2 a)))).
  Proof.
    destruct state_of as (own & H1 & H3 & H4 & _). unfold reduce_groups. assert (EL : length gs = length sys2) by (rewrite <- (Forall2_length _ _ _ (fl_lists _ _ _ _ H4)); by rewrite map_length).
    assert (E : mapO (fun c => Ok (external_energy xe c.2)) (zip (map gpGroups gs) sys2) = Ok (map (external_energy xe) sys2)).
    { apply mapO_Ok. apply Forall2_same_length_lookup_2; [rewrite zip_with_length, !map_length; lia|]. intros r [g q] x Hz Hx. rewrite lookup_zip_with, list_lookup_fmap in Hz. pose proof (list_lookup_fmap (external_energy xe) sys2 r) as EX. change (external_energy xe <$> sys2) with (map (external_energy xe) sys2) in EX. rewrite Hx in EX.
      destruct (gs !! r) as [p|]; [|done]. cbn in Hz. destruct (sys2 !! r) as [q'|]; [|done]. cbn in Hz, EX. injection Hz as <- <-. injection EX as ->. done. }
    rewrite E. cbn [obind]. f_equal. rewrite fold_right_sum, sum_map, sum_at. unfold local_addrs. rewrite sum_flat. apply sum_ext. intros r Hr. destruct (sys2 !! r) as [q|] eqn:Hq; [|done]. rewrite sum_map, external_energy_sum. unfold locals. rewrite sum_map. apply sum_ext. intros h _. by rewrite (mem_at_some _ _ _ _ Hq).
  Qed.

  (** C79: forces of all potentials together. *)
  Theorem dd_all_forces : forall C L n rc rev mk cap capA old lists cut2 fo u c dd,
    off_faces (map gpX gs) -> a_dd_box C L A sh n -> (0 < rc)%R -> (forall i, i < 3 -> vget s i = (rc / vget L i)%R) -> symmetric mk -> not_thin rev rc L (map gpX gs) ->
    Forall2 (can_build cap) old (map gpX gs) -> mapO (fun c => build_on cap capA rev rc n C L mk c.1 c.2) (zip old (map gpX gs)) = Ok lists ->
    interaction cut2 fo u c -> (0 <= dd)%R -> (c + 2 * dd <= rc)%R -> moved_little C dd (map gpX gs) s2 ->
    exists P s3, every_pair A mk cut2 sys2 P /\ computeForces dsr bfo af df xf cut2 fo kB kA kD rev lists (map gpGroups gs) sys2 = Ok s3 /\ same_lists sys2 s3 /\
      (forall a, a ∈ local_addrs sys2 -> exists f, mem_at s3 a = put_force (mem_at sys2 a) f) /\
      forall a c, a ∈ local_addrs sys2 -> c < 3 -> vget (xForce (mem_at s3 a)) c =
        (sum_over P (fun t => if decide (t.1.1 = a) then vget (pair_f fo A sys2 t) c else 0) +
         sum_over (kind_bonds kB G) (fun b => on_atom (xId (mem_at sys2 a)) c b (bond_fs d bfo b)) +
         sum_over (kind_bonds kA G) (fun b => on_atom (xId (mem_at sys2 a)) c b (angle_fs d af b)) +
         sum_over (kind_bonds kD G) (fun b => on_atom (xId (mem_at sys2 a)) c b (dihedral_fs d df b)) +
         vget (xf (xPos (mem_at sys2 a)) (xType (mem_at sys2 a))) c)%R.
  Proof.
    intros C L n rc rev mk cap capA old lists cut2 fo u c dd HF Hb Hrc Hs Hmk Hth Hold HB HI Hd Hcd HMo.
    destruct (dd_pair_sums_groups dims m s G gs0 gs C L A sh n rc rev mk cap capA old lists cut2 fo u c dd s2 sys2) as (P & HPe & _ & _ & _ & s5 & E5 & _ & _ & V5); try done.
    destruct state_of as (own & H1 & H3 & H4 & H5 & H6 & H7 & H8 & H9).
    assert (EL : length lists = length sys2). { apply mapO_Ok in HB. rewrite <- (Forall2_length _ _ _ HB), zip_with_length, (Forall2_length _ _ _ Hold), (Forall2_length _ _ _ (fl_lists _ _ _ _ H4)). lia. }
    destruct (all_forces A toGen dsq dsr ml HM G gs own sys2 pos d kB kA kD H5 H6 HSh H8 H9 H3 H4 Hpos HSe HC bu bfo ae af df xf cut2 fo rev lists EL dims s H1 s5 E5) as (s6 & E6 & S6 & P6 & V6).
    exists P, s6. split; [done|]. split; [done|]. split; [done|]. split; [done|]. intros a cc Ha Hcc. rewrite (V6 a cc Ha Hcc), (V5 a cc Ha Hcc). unfold bonded. lra.
  Qed.
End after_exchange.

(** Groups do not change the total momentum: their forces add to zero. *)
Definition total_on (sys2 : list xproc) (c : nat) (b : bond) (fs : list (vec3 R)) : R := sum_over (local_addrs sys2) (fun a => on_atom (xId (mem_at sys2 a)) c b fs).
Lemma on_all sys2 c b fs : NoDup (map (fun a => xId (mem_at sys2 a)) (local_addrs sys2)) -> (forall id, id ∈ bAtoms b -> exists a, a ∈ local_addrs sys2 /\ xId (mem_at sys2 a) = id) ->
  total_on sys2 c b fs = sum_over (zip (bAtoms b) fs) (fun x => vget x.2 c).
Proof.
  intros HN HE. unfold total_on, on_atom. rewrite sum_swap. apply sum_ext. intros [id f] Hx. cbn [fst snd]. assert (Hid : id ∈ bAtoms b) by (rewrite elem_of_list_In in Hx; apply in_combine_l in Hx; by apply elem_of_list_In).
  destruct (HE id Hid) as (a & Ha & E). rewrite (sum_one _ _ a); [by rewrite decide_True| |done|].
  - by apply NoDup_fmap_1 in HN.
  - intros a' Ha' Hne. rewrite decide_False; [done|]. intros E'. apply Hne. by apply (nodup_inj (fun a => xId (mem_at sys2 a)) (local_addrs sys2)); [..|congruence].
Qed.
Theorem dd_group_momentum : forall sys2 d bfo af df b c, c < 3 -> NoDup (map (fun a => xId (mem_at sys2 a)) (local_addrs sys2)) -> (forall id, id ∈ bAtoms b -> exists a, a ∈ local_addrs sys2 /\ xId (mem_at sys2 a) = id) ->
  total_on sys2 c b (bond_fs d bfo b) = 0%R /\ total_on sys2 c b (angle_fs d af b) = 0%R /\ total_on sys2 c b (dihedral_fs d df b) = 0%R.
Proof.
  intros sys2 d bfo af df b c Hc HN HE. rewrite !on_all by done. unfold bond_fs, angle_fs, dihedral_fs, opposite. destruct (bAtoms b) as [|i [|j [|k [|l [|]]]]]; cbn [zip zip_with]; rewrite ?sum_cons; cbn [fst snd];
    repeat split; try done; repeat match goal with |- context [sum_over [] ?f] => change (sum_over [] f) with 0%R end; destruct c as [|[|[|]]]; [| | |lia| | | |lia| | | |lia]; cbn [vget vscale vsub vmap vx vy vz]; try lra.
Qed.

(** ** C80: the stress of dihedrals *)
(** With both torsion potentials of the program, the derivatives at (b1, b2, b2) are zero. *)
Lemma cross_self (v : vec3 R) : normSq (cross v v) = 0%R.
Proof. destruct v as [v0 v1 v2]. unfold normSq, vdot, cross. cbn [vx vy vz]. ring. Qed.
Lemma derivs_none b1 b2 : tor_derivs b1 b2 b2 = None.
Proof. unfold tor_derivs. cbv zeta. destruct (Rlt_dec _ _); [done|]. rewrite cross_self. destruct (Rlt_dec 0 tor_eps); [done|]. exfalso. apply n0. unfold tor_eps. apply Rdiv_lt_0_compat; [lra|]. apply pow_lt. lra. Qed.
(** Dihedral forces of the program by type; a Fourier dihedral of a type that does not exist is not called. *)
Definition cosine_df (k : cdihedral) (b1 b2 b3 : vec3 R) (t : Z) : vec3 (vec3 R) := cd_force k b1 b2 b3 (Z.to_nat t).
Definition fourier_df (k : fdihedral) (b1 b2 b3 : vec3 R) (t : Z) : vec3 (vec3 R) := match fd_force k b1 b2 b3 (Z.to_nat t) with Ok f => f | _ => V3 (V3 0 0 0) (V3 0 0 0) (V3 0 0 0) end%R.
Inductive a_torsion : (vec3 R -> vec3 R -> vec3 R -> Z -> vec3 (vec3 R)) -> Prop :=
| at_cosine k : a_torsion (cosine_df k)
| at_fourier k : a_torsion (fourier_df k).
Lemma torsion_flat df b1 b2 t : a_torsion df -> df b1 b2 b2 t = (V3 (V3 0 0 0) (V3 0 0 0) (V3 0 0 0))%R.
Proof. intros [k|k]; [unfold cosine_df, cd_force|unfold fourier_df, fd_force]; by rewrite derivs_none. Qed.
(** Whatever the positions are, the stress of dihedrals is zero. *)
Theorem dd_dihedral_stress_zero : forall dsr df kD i j gs q x, a_torsion df -> dihedral_stress dsr df i j kD gs q = Ok x -> x = 0%R.
Proof.
  intros dsr df kD i j gs q x HT. unfold dihedral_stress. assert (X : forall l e, foldM (fun e g => let? h0 := gptr g 0 in let? h1 := gptr g 1 in let? h2 := gptr g 2 in let? h3 := gptr g 3 in
      let d := dihedral_drs dsr (xpMem q) h0 h1 h2 h3 in let f := df (vx d) (vy d) (vy d) (gType g) in let factor := (- (1 / 4) * (localInt q h0 + localInt q h1 + localInt q h2 + localInt q h3))%R in
      Ok (e + vget (vx f) i * vget (vscale factor (vx d)) j + vget (vy f) i * vget (vscale factor (vy d)) j + vget (vz f) i * vget (vscale factor (vz d)) j)%R) e l = Ok x -> x = e).
  { induction l as [|g l IH]; intros e; cbn [foldM]; [congruence|]. destruct (gptr g 0) as [h0| |]; [|done..]. destruct (gptr g 1) as [h1| |]; [|done..]. destruct (gptr g 2) as [h2| |]; [|done..]. destruct (gptr g 3) as [h3| |]; [|done..]. cbn [obind]. cbv zeta. rewrite !torsion_flat by done. cbn [vx vy vz].
    assert (E0 : vget (V3 0 0 0)%R i = 0%R) by (destruct i as [|[|[|]]]; done). rewrite E0. rewrite !Rmult_0_l, !Rplus_0_r. apply IH. }
  apply X.
Qed.
