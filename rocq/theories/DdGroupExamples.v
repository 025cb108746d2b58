(** Examples for covalent groups of the parallel program, and what is not true of the stress of dihedrals. *)
From Verif Require Import Base Containers Vec3 PlanModel PlanSpec PlanProofs OrthoModel BoxSpec OrthoSpec OrthoProofs OrthoProps MonoModel MonoSpec DomainModel DomainSpec DomainProofs DomainProps SpeciesModel SpeciesProofs SimProofs DistSpec DistExamples EnergySpec EnergyProofs BondModel AngleModel DihedralModel NbrModel NbrSpec NbrProofs NbrProps NbrExamples ExchModel ExchSpec ExchUpdSpec ExchProofs ExchAtoms ExchElem ExchStart ExchGhost ExchCopies ExchFinal ExchProps ExchLinks ExchUpdate ExchUpdProps ExchExamples GExchModel GExchSpec GExchProofs GExchAtoms GExchGhosts GExchReach GExchTotal GExchProps GExchExamples DdPairModel DdPairSpec DdPairExch DdPairProofs DdPairRuns DdPairTotal DdPairProps DdPairExamples DdGroupModel DdGroupSpec DdGroupProofs DdGroupTotal DdGroupProps.
From Coq Require Import Reals Lra.
Local Open Scope nat_scope.

(** What a processor has: addresses, ids and positions. *)
Definition snap (q : gproc) : list (nat * Z * vec3 R) * list (nat * Z * vec3 R) :=
  (map (fun h => (h, xId (xpMem (gpX q) h), xPos (xpMem (gpX q) h))) (xpLocals (gpX q)), map (fun h => (h, xId (xpMem (gpX q) h), xPos (xpMem (gpX q) h))) (xpGhosts (gpX q))).
Lemma snap_at gs l r p : map snap gs = l -> gs !! r = Some p -> exists x, l !! r = Some x /\
  (forall h, h ∈ xpLocals (gpX p) -> (h, xId (xpMem (gpX p) h), xPos (xpMem (gpX p) h)) ∈ x.1) /\ (forall h, h ∈ xpGhosts (gpX p) -> (h, xId (xpMem (gpX p) h), xPos (xpMem (gpX p) h)) ∈ x.2).
Proof.
  intros <- Hr. exists (snap p). rewrite list_lookup_fmap, Hr. split; [done|]. unfold snap. cbn [fst snd]. split; intros h Hh; apply elem_of_map; eauto.
Qed.

(** Positions at once after the exchange, in Cartesian coordinates. *)
Lemma still dims m s G gs0 gs A sh C : group_system dims G gs0 -> displaced dims m (map gpX gs0) -> slabs dims m s -> gexchange s gs0 = Ok gs ->
  lattice_shift A sh -> (forall g k, C (translate g k) = lattice_move A (C g) k) ->
  same_lists (map gpX gs) (to_cart C (map gpX gs)) /\
  (forall a, a ∈ local_addrs (map gpX gs) \/ a ∈ ghost_addrs (map gpX gs) -> xId (mem_at (to_cart C (map gpX gs)) a) = xId (mem_at (map gpX gs) a) /\ xType (mem_at (to_cart C (map gpX gs)) a) = xType (mem_at (map gpX gs) a)) /\
  moved_little C 0 (map gpX gs) (to_cart C (map gpX gs)) /\
  exists sys2, update sh (to_cart C (map gpX gs)) = Ok sys2 /\ same_lists (map gpX gs) sys2 /\
    forall a, a ∈ local_addrs (map gpX gs) \/ a ∈ ghost_addrs (map gpX gs) -> xId (mem_at sys2 a) = xId (mem_at (map gpX gs) a) /\ xPos (mem_at sys2 a) = C (xPos (mem_at (map gpX gs) a)).
Proof.
  intros HG HD HS HE Hsh HC. destruct (gexchange_in_place dims m s G gs0 gs HG HD HS HE) as (HI & own & HL). pose proof (cart_follows C A (map gpX gs) own HL HC) as HF. split; [apply cart_lists|]. split; [apply (fl_atoms _ _ _ _ HF)|]. split; [apply cart_still|].
  destruct (update_follows A sh own _ _ HL Hsh (cart_lists C (map gpX gs)) (fl_atoms _ _ _ _ HF)) as (s3 & E3 & HF3 & HLo). exists s3. split; [done|]. split; [apply (fl_lists _ _ _ _ HF3)|]. intros a Ha. split; [by apply (fl_atoms _ _ _ _ HF3)|]. destruct Ha as [Ha|Ha].
  - rewrite (HLo a Ha), mem_cart by (apply addr_lt; by left). done.
  - rewrite (fl_pos _ _ _ _ HF3 a Ha). destruct (li_own _ _ HL a Ha) as (Hl & _ & _ & E). rewrite (HLo _ Hl), mem_cart by (apply addr_lt; by left). cbn [put_pos xPos]. by rewrite E, HC.
Qed.

(** ** A bond across the boundary of two processors *)
Definition rA : vec3 R := (V3 (1/32) (1/2) (1/2))%R.
Definition rA1 : vec3 R := (V3 (33/32) (1/2) (1/2))%R.
Definition rB : vec3 R := (V3 (15/16) (1/2) (1/2))%R.
Definition rB1 : vec3 R := (V3 (-1/16) (1/2) (1/2))%R.
Definition sysc : list gproc := [
  gp_of 2 (dom2 0) [at_ 5 rA] [at_ 7 rB1] [the_bond [Some 0; Some 1]];
  gp_of 2 (dom2 1) [at_ 7 rB] [at_ 5 rA1] [the_bond [Some 1; Some 0]]].
Lemma heldc : held (map gpX sysc) = [(0, at_ 5 rA); (1, at_ 7 rB)].
Proof. unfold held, sysc. cbn [map length seq flat_map lookup list_lookup]. rewrite !locals_gp. reflexivity. Qed.
Lemma systemc : group_system dims2 Gb sysc.
Proof.
  split.
  - split; [exact (proj1 dims2_ok)|exact (proj2 dims2_ok)|]. unfold sysc. cbn [map]. repeat (constructor; [apply gp_pointers|]). constructor.
  - rewrite heldc. apply (bool_decide_eq_true_1 (NoDup _)). reflexivity.
  - apply NoDup_singleton.
  - unfold sysc, Gb. constructor.
    { apply (ok_one 2 (dom2 0) [at_ 5 rA] [at_ 7 rB1] (the_bond [Some 0; Some 1])); [left; cbn; elem|done| |].
      - intros k id Hk h a Ha. destruct h as [|]; [|done]. cbn in Ha. injection Ha as <-. unfold points. two k; cbn in Hk |- *; injection Hk as <-; split; congruence.
      - intros k id Hk h Hh. unfold points in Hh. two k; cbn in Hk, Hh; injection Hk as <-; injection Hh as <-; eauto. }
    constructor; [|constructor].
    { apply (ok_one 2 (dom2 1) [at_ 7 rB] [at_ 5 rA1] (the_bond [Some 1; Some 0])); [left; cbn; elem|done| |].
      - intros k id Hk h a Ha. destruct h as [|]; [|done]. cbn in Ha. injection Ha as <-. unfold points. two k; cbn in Hk |- *; injection Hk as <-; split; congruence.
      - intros k id Hk h Hh. unfold points in Hh. two k; cbn in Hk, Hh; injection Hk as <-; injection Hh as <-; eauto. }
Qed.
Lemma displacedc : displaced dims2 mb (map gpX sysc).
Proof.
  split; [intros i Hi; axes i Hi; unfold width; cbn [vget vx vy vz dims2 mb]; lra|]. intros p a Hp Ha. unfold sysc in Hp. cbn [map] in Hp. rewrite !elem_of_cons, elem_of_nil in Hp.
  destruct Hp as [->|[->|[]]]; rewrite locals_gp in Ha; rewrite ?elem_of_cons, elem_of_nil in Ha; destruct Ha as [->|[]]; intros i Hi; cbn [gp_of gpX xp_of xpDom].
  - destruct (boundsb0 i Hi) as [-> ->]. axes i Hi; cbn [vget vx vy vz mb at_ xPos rA]; lra.
  - destruct (boundsb1 i Hi) as [-> ->]. axes i Hi; cbn [vget vx vy vz mb at_ xPos rB]; lra.
Qed.
Lemma populatedc : populated Gb (map gpX sysc).
Proof.
  intros b id Hb Hid. apply elem_of_list_singleton in Hb. subst b. rewrite heldc. cbn [bAtoms] in Hid. rewrite !elem_of_cons, elem_of_nil in Hid. destruct Hid as [->|[->|[]]].
  - exists (0, at_ 5 rA). split; [elem|done].
  - exists (1, at_ 7 rB). split; [elem|done].
Qed.
Definition plan_lo : plan := setGhost (clearFlags 0%N) 0 0.
Definition plan_hi : plan := setGhost (clearFlags 0%N) 0 1.
Ltac plan3 HB := unfold setp, at_plan; cbn [at_ xId xType xPos xForce xRest]; rewrite (plan_atom_eq _ _ _ _ _ HB); cbn [fold_left vget vx vy vz sb rA rB]; cbv zeta; rdec; reflexivity.
Lemma setc0 : setp sb (dom2 0) (at_ 5 rA) = at_plan 5 rA plan_lo.
Proof. plan3 boundsb0. Qed.
Lemma setc1 : setp sb (dom2 1) (at_ 7 rB) = at_plan 7 rB plan_hi.
Proof. plan3 boundsb1. Qed.
Ltac span3 HB i := rewrite (spans_eq _ _ _ _ _ _ _ _ _ (proj1 (HB i ltac:(lia))) (proj2 (HB i ltac:(lia)))); cbn [ptrs the_bond gPtrs omap list_omap existsb]; edec; cbn [nth app vget vx vy vz sb rA rB rA1 rB1 at_plan at_ xPos xPlan]; flags; cbv zeta; rdec; vm_compute; reflexivity.
Lemma markc0 : mark_group (dom2 0) sb (fun h => nth h ([at_plan 5 rA plan_lo] ++ [at_ 7 rB1]) dfl) [1] (the_bond [Some 0; Some 1]) = GG 0 3 2 [5; 7]%Z [Some 0; None] (clearGhost (setGhost (clearFlags 0%N) 0 0) 0 1).
Proof.
  set (mem := fun h => nth h _ _). assert (S00 : spans (dom2 0) sb mem [1] 0 0 (the_bond [Some 0; Some 1]) = true) by (unfold mem; span3 boundsb0 0).
  assert (S01 : spans (dom2 0) sb mem [1] 0 1 (the_bond [Some 0; Some 1]) = false) by (unfold mem; span3 boundsb0 0).
  unfold mark_group, group_plan. cbn [dirs fold_left fst snd]. change (xflag (dom2 0) 0) with true. change (xflag (dom2 0) 1) with false. change (xflag (dom2 0) 2) with false. change (is_complete (the_bond [Some 0; Some 1])) with true.
  cbv iota. rewrite S00, S01. reflexivity.
Qed.
Lemma markc1 : mark_group (dom2 1) sb (fun h => nth h ([at_plan 7 rB plan_hi] ++ [at_ 5 rA1]) dfl) [1] (the_bond [Some 1; Some 0]) = GG 0 3 2 [5; 7]%Z [None; Some 0] (setGhost (clearGhost (clearFlags 0%N) 0 0) 0 1).
Proof.
  set (mem := fun h => nth h _ _). assert (S00 : spans (dom2 1) sb mem [1] 0 0 (the_bond [Some 1; Some 0]) = false) by (unfold mem; span3 boundsb1 0).
  assert (S01 : spans (dom2 1) sb mem [1] 0 1 (the_bond [Some 1; Some 0]) = true) by (unfold mem; span3 boundsb1 0).
  unfold mark_group, group_plan. cbn [dirs fold_left fst snd]. change (xflag (dom2 1) 0) with true. change (xflag (dom2 1) 1) with false. change (xflag (dom2 1) 2) with false. change (is_complete (the_bond [Some 1; Some 0])) with true.
  cbv iota. rewrite S00, S01. reflexivity.
Qed.
Definition rB2 : vec3 R := (V3 (15/16 + -1) (1/2) (1/2))%R.
Definition rA2 : vec3 R := (V3 (1/32 + 1) (1/2) (1/2))%R.
(** Both processors have the bond, and a ghost of the atom of the other one. *)
Lemma runc : exists gs, gexchange sb sysc = Ok gs /\ map snap gs = [
  ([(0, 5%Z, rA)], [(2, 7%Z, rB2)]); ([(0, 7%Z, rB)], [(2, 5%Z, rA2)])] /\ map (fun q => map gPtrs (gpGroups q)) gs = [[[Some 0; Some 2]]; [[Some 2; Some 0]]].
Proof.
  assert (X : match gexchange sb sysc with Ok gs => map snap gs = [([(0, 5%Z, rA)], [(2, 7%Z, rB2)]); ([(0, 7%Z, rB)], [(2, 5%Z, rA2)])] /\ map (fun q => map gPtrs (gpGroups q)) gs = [[[Some 0; Some 2]]; [[Some 2; Some 0]]] | _ => False end).
  { unfold gexchange, gexchangeAtoms, sysc. cbn [map]. rewrite !gstart_gp. cbn [map length seq]. rewrite setc0, setc1. rewrite markc0, markc1. lazy -[IZR Rdiv Rplus Ropp Rminus Rmult]. split; reflexivity. }
  destruct (gexchange sb sysc) as [gs| |]; [|done..]. exists gs. tauto.
Qed.

(** The box: a cube of side 4. *)
Lemma cube_metric : a_metric pe_vec (cartToGen cube4) (distanceSq cube4) (distanceSq_dr cube4) (oMinLen cube4).
Proof. exact (am_ortho cube4 cube4_ok). Qed.
Lemma cube_back g : cartToGen cube4 (genToCart cube4 g) = g.
Proof. apply (ortho_transforms_inverse cube4 cube4_ok). Qed.
Lemma cube_min : oMinLen cube4 = 4%R.
Proof. destruct (owf_a_box cube4 cube4_ok) as (l & lat & W). rewrite (w_minlen _ _ _ W), <- (w_len _ _ _ W), cube4_len. cbn [vx vy vz]. unfold Rmin. repeat destruct (Rle_dec _ _); lra. Qed.
Lemma cube_moves : lattice_shift pe_vec (applyShift cube4) /\ forall g k, genToCart cube4 (translate g k) = lattice_move pe_vec (genToCart cube4 g) k.
Proof. exact (box_moves _ _ _ _ 1 (pe_box 1)). Qed.
Lemma cube_cart (x y z : R) : genToCart cube4 (V3 x y z) = (V3 (x * 4) (y * 4) (z * 4))%R.
Proof. unfold genToCart. rewrite cube4_len. done. Qed.
(** Separations in the cube. *)
Lemma near_cube pos i j v n : v = vsub (pos i) (lattice_move pe_vec (pos j) n) -> (normSq v < 4)%R -> nearest pe_vec (oMinLen cube4) pos i j v.
Proof. intros -> H. exists n. split; [done|]. rewrite cube_min. lra. Qed.
Ltac near_by w := apply (near_cube _ _ _ _ w); [unfold lattice_move, vsub, pe_vec; rewrite cube4_len; cbn [vx vy vz vget vset]; f_equal; lra|unfold normSq, vdot; cbn [vx vy vz]; lra].

Definition posc (id : Z) : vec3 R := if decide (id = 5)%Z then (V3 (1/8) 2 2)%R else (V3 (15/4) 2 2)%R.
Definition dc (i j : Z) : vec3 R := if decide (i = 5)%Z then (V3 (3/8) 0 0)%R else (V3 (-3/8) 0 0)%R.
Lemma separationsc : separations pe_vec (oMinLen cube4) posc Gb dc.
Proof.
  intros b k i j Hb Hi Hj. apply elem_of_list_singleton in Hb. subst b. cbn [bAtoms] in Hi, Hj. destruct k as [|[|]]; [|done..]. cbn in Hi, Hj. injection Hi as <-. injection Hj as <-.
  change (dc 5 7) with (V3 (3/8) 0 0)%R. change (dc 7 5) with (V3 (-3/8) 0 0)%R. split.
  - apply (near_cube _ _ _ _ (V3 (-1) 0 0)%Z); [change (posc 5) with (V3 (1/8) 2 2)%R; change (posc 7) with (V3 (15/4) 2 2)%R; unfold lattice_move, vsub, pe_vec; rewrite cube4_len; cbn [vx vy vz vget vset]; f_equal; lra|unfold normSq, vdot; cbn [vx vy vz]; lra].
  - apply (near_cube _ _ _ _ (V3 1 0 0)%Z); [change (posc 5) with (V3 (1/8) 2 2)%R; change (posc 7) with (V3 (15/4) 2 2)%R; unfold lattice_move, vsub, pe_vec; rewrite cube4_len; cbn [vx vy vz vget vset]; f_equal; lra|unfold normSq, vdot; cbn [vx vy vz]; lra].
Qed.
(** A state as it is seen in a snapshot. *)
Lemma seen_compact gs sys2 l : map snap gs = l -> same_lists (map gpX gs) sys2 ->
  (forall a, a ∈ local_addrs (map gpX gs) \/ a ∈ ghost_addrs (map gpX gs) -> xId (mem_at sys2 a) = xId (mem_at (map gpX gs) a) /\ xPos (mem_at sys2 a) = genToCart cube4 (xPos (mem_at (map gpX gs) a))) ->
  (forall r x, l !! r = Some x -> forall u v i, u ∈ x.1 ++ x.2 -> v ∈ x.1 ++ x.2 -> i < 3 -> (Rabs (vget u.2 i - vget v.2 i) <= 3/2)%R) -> DdGroupSpec.compact (cartToGen cube4) sys2.
Proof.
  intros Hl HS HX H r q h h' i Hq Hh Hh' Hi. pose proof (Forall2_length _ _ _ HS) as EL. rewrite map_length in EL. destruct (lookup_lt_is_Some_2 gs r) as [p Hp]; [rewrite EL; by eapply lookup_lt_Some|].
  assert (Hp' : map gpX gs !! r = Some (gpX p)) by (by rewrite list_lookup_fmap, Hp). destruct (same_lookup _ _ _ _ HS Hp') as (q' & Hq' & _ & E1 & E2). assert (q' = q) as -> by congruence. rewrite E1, E2 in Hh, Hh'.
  destruct (snap_at _ _ _ _ Hl Hp) as (x & Hx & S1 & S2).
  assert (HA : forall h, h ∈ xpLocals (gpX p) ++ xpGhosts (gpX p) -> cartToGen cube4 (xPos (xpMem q h)) = xPos (xpMem (gpX p) h) /\ (h, xId (xpMem (gpX p) h), xPos (xpMem (gpX p) h)) ∈ x.1 ++ x.2).
  { intros k Hk. assert (Ha : (r, k) ∈ local_addrs (map gpX gs) \/ (r, k) ∈ ghost_addrs (map gpX gs)). { apply elem_of_app in Hk as [Hk|Hk]; [left; apply elem_local|right; apply elem_ghost]; by exists (gpX p). }
    destruct (HX _ Ha) as [_ X]. rewrite (mem_at_some _ _ _ _ Hq), (mem_at_some _ _ _ _ Hp') in X. rewrite X, cube_back. split; [done|]. apply elem_of_app in Hk as [Hk|Hk]; apply elem_of_app; [left; by apply S1|right; by apply S2]. }
  destruct (HA h Hh) as [-> M1]. destruct (HA h' Hh') as [-> M2]. exact (H r x Hx _ _ i M1 M2 Hi).
Qed.
Lemma seen_positions gs sys2 l pos : map snap gs = l -> same_lists (map gpX gs) sys2 ->
  (forall a, a ∈ local_addrs (map gpX gs) \/ a ∈ ghost_addrs (map gpX gs) -> xId (mem_at sys2 a) = xId (mem_at (map gpX gs) a) /\ xPos (mem_at sys2 a) = genToCart cube4 (xPos (mem_at (map gpX gs) a))) ->
  (forall r x, l !! r = Some x -> forall u, u ∈ x.1 -> pos u.1.2 = genToCart cube4 u.2) -> positions sys2 pos.
Proof.
  intros Hl HS HX H [r h] Ha. rewrite (same_local _ _ HS) in Ha. destruct (HX _ (or_introl Ha)) as [-> ->]. apply elem_local in Ha as (x & Hx & Hh). cbn [fst snd] in Hx, Hh. rewrite (mem_at_some _ _ _ _ Hx). rewrite list_lookup_fmap in Hx. destruct (gs !! r) as [p|] eqn:Hp; [|done]. injection Hx as <-.
  destruct (snap_at _ _ _ _ Hl Hp) as (y & Hy & S1 & _). exact (H r y Hy _ (S1 h Hh)).
Qed.
Ltac at2 r Hx := destruct r as [|[|]]; [| |done]; cbn in Hx; injection Hx as <-.
(** Hypotheses of [dd_group_energies], [dd_group_stress] and [dd_all_forces] hold, and the energy of the bond is counted once. *)
Example group_ex : exists gs sys2, gexchange sb sysc = Ok gs /\ same_lists (map gpX gs) (to_cart (genToCart cube4) (map gpX gs)) /\ update (applyShift cube4) (to_cart (genToCart cube4) (map gpX gs)) = Ok sys2 /\
  positions sys2 posc /\ DdGroupSpec.compact (cartToGen cube4) sys2 /\ shaped 0 1 2 Gb /\
  reduce_groups (bond_energy (distanceSq cube4) (fun r _ => r) 0) (map gpGroups gs) sys2 = Ok (9/64)%R.
Proof.
  destruct runc as (gs & HE & HSn & _). destruct cube_moves as [Hsh HC]. destruct (still dims2 mb sb Gb sysc gs pe_vec (applyShift cube4) (genToCart cube4) systemc displacedc (proj1 slabsb) HE Hsh HC) as (H1 & H2 & _ & sys2 & HU & HS & HX).
  assert (HP : positions sys2 posc).
  { apply (seen_positions gs sys2 _ posc HSn HS HX). intros r x Hx u Hu. at2 r Hx; cbn [fst] in Hu; apply elem_of_list_singleton in Hu; subst u; cbn [fst snd]; unfold rA, rB; rewrite cube_cart; [change (posc 5) with (V3 (1/8) 2 2)%R|change (posc 7) with (V3 (15/4) 2 2)%R]; f_equal; lra. }
  assert (HCm : DdGroupSpec.compact (cartToGen cube4) sys2).
  { apply (seen_compact gs sys2 _ HSn HS HX). intros r x Hx u v i Hu Hv Hi. at2 r Hx; cbn [fst snd app] in Hu, Hv; rewrite !elem_of_cons, elem_of_nil in Hu, Hv; destruct Hu as [->|[->|[]]], Hv as [->|[->|[]]]; axes i Hi; cbn [vget vx vy vz snd rA rB rA2 rB2]; rabs. }
  assert (HSh : shaped 0 1 2 Gb) by (apply Forall_singleton; cbn; split; [done|split; done]).
  exists gs, sys2. split; [done|]. split; [done|]. split; [done|]. split; [done|]. split; [done|]. split; [done|].
  destruct (dd_group_energies dims2 mb sb Gb sysc gs systemc displacedc (proj1 slabsb) populatedc HE pe_vec (applyShift cube4) (cartToGen cube4) (distanceSq cube4) (distanceSq_dr cube4) (oMinLen cube4) cube_metric Hsh _ sys2 H1 H2 HU posc dc 0 1 2 HP separationsc HCm HSh (fun r _ => r) (fun _ _ => 0%R) (fun _ _ _ _ => 0%R)) as [-> _].
  f_equal. cbn [kind_bonds Gb List.filter Nat.eqb bKind]. rewrite sum_cons. change (sum_over [] (bond_u dc (fun r _ => r))) with 0%R. unfold bond_u. cbn [bAtoms bType]. change (dc 5 7) with (V3 (3/8) 0 0)%R. unfold normSq, vdot. cbn [vx vy vz]. lra.
Qed.

(** Lists can be built too, with the cutoff 1/2, for both kinds of communication; so [dd_all_forces] applies. *)
Definition ge_cut (a b : Z) : R := (1/4)%R.
Definition ge_u (r : R) (a b : Z) : R := if Rlt_dec r (1/4) then (1/4 - r)%R else 0%R.
Lemma ge_interaction : interaction ge_cut pe_f ge_u (1/2)%R.
Proof. split; [done|]. split; [done|]. split; [done|]. split; [|split; [lra|intros a b; unfold ge_cut; lra]]. intros r a b H. unfold ge_cut, ge_u in *. by destruct (Rlt_dec _ _). Qed.
Example forces_ex : forall rev bfo af df xf, exists gs sys2 lists P s3, gexchange sb sysc = Ok gs /\ update (applyShift cube4) (to_cart (genToCart cube4) (map gpX gs)) = Ok sys2 /\
  every_pair pe_vec (fun _ _ => false) ge_cut sys2 P /\ computeForces (distanceSq_dr cube4) bfo af df xf ge_cut pe_f 0 1 2 rev lists (map gpGroups gs) sys2 = Ok s3 /\
  forall a c, a ∈ local_addrs sys2 -> c < 3 -> vget (xForce (mem_at s3 a)) c =
    (sum_over P (fun t : triple => if decide (t.1.1 = a) then vget (pair_f pe_f pe_vec sys2 t) c else 0) + on_atom (xId (mem_at sys2 a)) c (Bond 0 3 2 [5; 7]%Z) (bond_fs dc bfo (Bond 0 3 2 [5; 7]%Z)) + vget (xf (xPos (mem_at sys2 a)) (xType (mem_at sys2 a))) c)%R.
Proof.
  intros rev bfo af df xf. destruct runc as (gs & HE & HSn & _). destruct cube_moves as [Hsh HC]. destruct (still dims2 mb sb Gb sysc gs pe_vec (applyShift cube4) (genToCart cube4) systemc displacedc (proj1 slabsb) HE Hsh HC) as (H1 & H2 & HM & sys2 & HU & HS & HX).
  destruct group_ex as (gs' & sys2' & HE' & _ & HU' & HP & HCm & HSh & _). rewrite HE in HE'. injection HE' as <-. rewrite HU in HU'. injection HU' as <-.
  destruct (gexchange_in_place dims2 mb sb Gb sysc gs systemc displacedc (proj1 slabsb) HE) as (HI & own & HL).
  assert (EL : length gs = 2). { pose proof (f_equal length HSn) as X. by rewrite map_length in X. }
  assert (HB : forall r p, map gpX gs !! r = Some p -> lower (xpDom p) = (V3 (IZR (vx (coords dims2 r)) / 2) (IZR (vy (coords dims2 r)) / 1) (IZR (vz (coords dims2 r)) / 1))%R /\ upper (xpDom p) = (V3 ((IZR (vx (coords dims2 r)) + 1) / 2) ((IZR (vy (coords dims2 r)) + 1) / 1) ((IZR (vz (coords dims2 r)) + 1) / 1))%R).
  { intros r p Hr. unfold lower, upper. pose proof (widths dims2 sb (map gpX gs) HI r p Hr) as W. destruct (W 0 ltac:(lia)) as [-> ->], (W 1 ltac:(lia)) as [-> ->], (W 2 ltac:(lia)) as [-> ->]. done. }
  assert (HF : off_faces (map gpX gs)).
  { apply Forall_forall. intros p Hp. apply elem_of_list_lookup in Hp as [r Hr]. destruct (HB r p Hr) as [-> ->]. apply Forall_forall. intros a Ha. unfold locals in Ha. apply elem_of_map in Ha as (h & -> & Hh). rewrite list_lookup_fmap in Hr. destruct (gs !! r) as [g|] eqn:Hg; [|done]. injection Hr as <-.
    destruct (snap_at _ _ _ _ HSn Hg) as (x & Hx & S1 & _). specialize (S1 h Hh). destruct r as [|[|]]; [| |done]; cbn in Hx; injection Hx as <-; cbn [fst] in S1; apply elem_of_list_singleton in S1; injection S1 as _ _ ->.
    - change (coords dims2 0) with (V3 0 0 0)%Z. unfold owned, rA. cbn [vx vy vz]. lra.
    - change (coords dims2 1) with (V3 1 0 0)%Z. unfold owned, rB. cbn [vx vy vz]. lra. }
  assert (HW : Forall (fun p => (2 * (1/2 / vz (oLen cube4)) <= vz (upper (xpDom p)) - vz (lower (xpDom p)))%R /\ wide_enough (lower (xpDom p)) (upper (xpDom p)) (scaled (1/2) (oLen cube4)) 1) (map gpX gs)).
  { apply Forall_forall. intros p Hp. apply elem_of_list_lookup in Hp as [r Hr]. destruct (HB r p Hr) as [-> ->]. rewrite cube4_len. unfold wide_enough, scaled. cbn [vx vy vz]. split; [lra|]. split; [lia|]. split; [lra|]. split; lra. }
  assert (HT : not_thin rev (1/2) (oLen cube4) (map gpX gs)) by (right; eapply Forall_impl; [exact HW|]; cbn beta; tauto).
  assert (HN : Forall (fun p => length (xpLocals p) + length (xpGhosts p) <= 2) (map gpX gs)).
  { apply Forall_forall. intros p Hp. apply elem_of_list_lookup in Hp as [r Hr]. rewrite list_lookup_fmap in Hr. destruct (gs !! r) as [g|] eqn:Hg; [|done]. injection Hr as <-. pose proof (f_equal (fun l => l !! r) HSn) as X. cbn beta in X. rewrite list_lookup_fmap, Hg in X. cbn [fmap option_fmap option_map] in X.
    assert (Y : length (snap g).1 + length (snap g).2 = 2) by (destruct r as [|[|]]; [| |done]; cbn in X; injection X as X1 X2; unfold snap; cbn [fst snd]; by rewrite X1, X2). unfold snap in Y. cbn [fst snd] in Y. rewrite !map_length in Y. lia. }
  set (old := map (fun _ : xproc => (dcl_new 0, DPL [] [] [] 0 1)) (map gpX gs)).
  assert (Hold : Forall2 (can_build 2) old (map gpX gs)).
  { unfold old. apply Forall2_fmap_l. apply Forall2_same_length_lookup_2; [done|]. intros r p p' Hp Hp'. assert (p' = p) as -> by congruence. split; [constructor|]. exact (proj1 (Forall_forall _ _) HN p (elem_of_list_lookup_2 _ _ _ Hp)). }
  destruct (dd_lists_build dims2 sb (map gpX gs) own (genToCart cube4) (oLen cube4) pe_vec (applyShift cube4) 1 (1/2) rev (fun _ _ => false) 2 10 old) as [lists HBl]; try done; [apply pe_box|lra|lia|eapply Forall_impl; [exact HW|]; cbn beta; tauto| | |].
  - eapply Forall_impl; [exact HN|]. cbn beta. intros. lia.
  - unfold old. apply Forall_fmap. apply Forall_forall. intros p _. cbn. lia.
  - destruct (dd_all_forces dims2 mb sb Gb sysc gs systemc displacedc (proj1 slabsb) populatedc HE pe_vec (applyShift cube4) (cartToGen cube4) (distanceSq cube4) (distanceSq_dr cube4) (oMinLen cube4) cube_metric Hsh _ sys2 H1 H2 HU posc dc 0 1 2 HP separationsc HCm HSh (fun _ _ => 0%R) bfo (fun _ _ => 0%R) af df xf
      (genToCart cube4) (oLen cube4) 1 (1/2)%R rev (fun _ _ => false) 2 10 old lists ge_cut pe_f ge_u (1/2)%R 0%R) as (P & s3 & X1 & X2 & _ & _ & X3); try done; [apply pe_box|lra| |apply ge_interaction|lra|lra|].
    + intros i Hi. rewrite cube4_len. axes i Hi; cbn [vget sb vx vy vz]; lra.
    + exists gs, sys2, lists, P, s3. split; [done|]. split; [done|]. split; [done|]. split; [done|]. intros a c Ha Hc. rewrite (X3 a c Ha Hc). cbn [kind_bonds Gb List.filter Nat.eqb bKind]. rewrite !sum_cons. repeat match goal with |- context [sum_over [] ?f] => change (sum_over [] f) with 0%R end. lra.
Qed.

(** ** C80: four atoms of one processor, with bonds along x, y and z *)
Definition w1 : vec3 R := (V3 (3/16) (1/2) (1/2))%R.
Definition w2 : vec3 R := (V3 (5/16) (1/2) (1/2))%R.
Definition w3 : vec3 R := (V3 (5/16) (5/8) (1/2))%R.
Definition w4 : vec3 R := (V3 (5/16) (5/8) (5/8))%R.
Definition the_dihedral : ggroup := GG 2 1 0 [1; 2; 3; 4]%Z [Some 0; Some 1; Some 2; Some 3] 0%N.
Definition Gd : list bond := [Bond 2 1 0 [1; 2; 3; 4]%Z].
Definition sysd : list gproc := [gp_of 2 (dom2 0) [at_ 1 w1; at_ 2 w2; at_ 3 w3; at_ 4 w4] [] [the_dihedral]; gp_of 2 (dom2 1) [] [] []].
Lemma heldd : held (map gpX sysd) = [(0, at_ 1 w1); (0, at_ 2 w2); (0, at_ 3 w3); (0, at_ 4 w4)].
Proof. unfold held, sysd. cbn [map length seq flat_map lookup list_lookup]. rewrite !locals_gp. reflexivity. Qed.
Ltac four k := destruct k as [|[|[|[|]]]]; [| | | |done].
Lemma systemd : group_system dims2 Gd sysd.
Proof.
  split.
  - split; [exact (proj1 dims2_ok)|exact (proj2 dims2_ok)|]. unfold sysd. cbn [map]. repeat (constructor; [apply gp_pointers|]). constructor.
  - rewrite heldd. apply (bool_decide_eq_true_1 (NoDup _)). reflexivity.
  - apply NoDup_singleton.
  - unfold sysd, Gd. constructor; [|constructor; [|constructor]].
    { apply (ok_one 2 (dom2 0) [at_ 1 w1; at_ 2 w2; at_ 3 w3; at_ 4 w4] [] the_dihedral); [left; cbn; elem|done| |].
      - intros k id Hk h a Ha. unfold points. four h; cbn in Ha; injection Ha as <-; four k; cbn in Hk |- *; injection Hk as <-; split; congruence.
      - intros k id Hk h Hh. unfold points in Hh. four k; cbn in Hk, Hh; injection Hk as <-; injection Hh as <-; eauto. }
    { apply ok_nil. apply Forall_singleton. constructor. }
Qed.
Lemma displacedd : displaced dims2 mb (map gpX sysd).
Proof.
  split; [intros i Hi; axes i Hi; unfold width; cbn [vget vx vy vz dims2 mb]; lra|]. intros p a Hp Ha. unfold sysd in Hp. cbn [map] in Hp. rewrite !elem_of_cons, elem_of_nil in Hp.
  destruct Hp as [->|[->|[]]]; rewrite locals_gp in Ha; rewrite ?elem_of_cons, elem_of_nil in Ha; [|done]. intros i Hi. cbn [gp_of gpX xp_of xpDom]. destruct (boundsb0 i Hi) as [-> ->].
  destruct Ha as [->|[->|[->|[->|[]]]]]; axes i Hi; cbn [vget vx vy vz mb at_ xPos w1 w2 w3 w4]; lra.
Qed.
Lemma populatedd : populated Gd (map gpX sysd).
Proof.
  intros b id Hb Hid. apply elem_of_list_singleton in Hb. subst b. rewrite heldd. cbn [bAtoms] in Hid. rewrite !elem_of_cons, elem_of_nil in Hid. destruct Hid as [->|[->|[->|[->|[]]]]];
    [exists (0, at_ 1 w1)|exists (0, at_ 2 w2)|exists (0, at_ 3 w3)|exists (0, at_ 4 w4)]; (split; [elem|done]).
Qed.
Ltac plan4 := unfold setp, at_plan; cbn [at_ xId xType xPos xForce xRest]; rewrite (plan_atom_eq _ _ _ _ _ boundsb0); cbn [fold_left vget vx vy vz sb w1 w2 w3 w4]; cbv zeta; rdec; reflexivity.
Lemma setd1 : setp sb (dom2 0) (at_ 1 w1) = at_plan 1 w1 (clearFlags 0%N).
Proof. plan4. Qed.
Lemma setd2 : setp sb (dom2 0) (at_ 2 w2) = at_plan 2 w2 (clearFlags 0%N).
Proof. plan4. Qed.
Lemma setd3 : setp sb (dom2 0) (at_ 3 w3) = at_plan 3 w3 (clearFlags 0%N).
Proof. plan4. Qed.
Lemma setd4 : setp sb (dom2 0) (at_ 4 w4) = at_plan 4 w4 (clearFlags 0%N).
Proof. plan4. Qed.
Ltac span4 i := rewrite (spans_eq _ _ _ _ _ _ _ _ _ (proj1 (boundsb0 i ltac:(lia))) (proj2 (boundsb0 i ltac:(lia)))); cbn [ptrs the_dihedral gPtrs omap list_omap existsb]; edec; cbn [nth app vget vx vy vz sb w1 w2 w3 w4 at_plan at_ xPos xPlan]; flags; cbv zeta; rdec; vm_compute; reflexivity.
Lemma markd : mark_group (dom2 0) sb (fun h => nth h ([at_plan 1 w1 (clearFlags 0%N); at_plan 2 w2 (clearFlags 0%N); at_plan 3 w3 (clearFlags 0%N); at_plan 4 w4 (clearFlags 0%N)] ++ []) dfl) [] the_dihedral = GG 2 1 0 [1; 2; 3; 4]%Z [Some 0; Some 1; Some 2; Some 3] (clearGhost (clearGhost (clearFlags 0%N) 0 0) 0 1).
Proof.
  set (mem := fun h => nth h _ _). assert (S00 : spans (dom2 0) sb mem [] 0 0 the_dihedral = false) by (unfold mem; span4 0).
  assert (S01 : spans (dom2 0) sb mem [] 0 1 the_dihedral = false) by (unfold mem; span4 0).
  unfold mark_group, group_plan. cbn [dirs fold_left fst snd]. change (xflag (dom2 0) 0) with true. change (xflag (dom2 0) 1) with false. change (xflag (dom2 0) 2) with false. change (is_complete the_dihedral) with true.
  cbv iota. rewrite S00, S01. reflexivity.
Qed.
Lemma rund : exists gs, gexchange sb sysd = Ok gs /\ map snap gs = [([(0, 1%Z, w1); (1, 2%Z, w2); (2, 3%Z, w3); (3, 4%Z, w4)], []); ([], [])].
Proof.
  assert (X : match gexchange sb sysd with Ok gs => map snap gs = [([(0, 1%Z, w1); (1, 2%Z, w2); (2, 3%Z, w3); (3, 4%Z, w4)], []); ([], [])] | _ => False end).
  { unfold gexchange, gexchangeAtoms, sysd. cbn [map]. rewrite !gstart_gp. cbn [map length seq]. rewrite setd1, setd2, setd3, setd4, markd. lazy -[IZR Rdiv Rplus Ropp Rminus Rmult]. reflexivity. }
  destruct (gexchange sb sysd) as [gs| |]; [|done..]. by exists gs.
Qed.
Definition posd (id : Z) : vec3 R := genToCart cube4 (if decide (id = 1)%Z then w1 else if decide (id = 2)%Z then w2 else if decide (id = 3)%Z then w3 else w4).
Definition dD (i j : Z) : vec3 R := vsub (posd i) (posd j).
Lemma posd_all : posd 1 = (V3 (3/4) 2 2)%R /\ posd 2 = (V3 (5/4) 2 2)%R /\ posd 3 = (V3 (5/4) (5/2) 2)%R /\ posd 4 = (V3 (5/4) (5/2) (5/2))%R.
Proof.
  change (posd 1) with (genToCart cube4 w1). change (posd 2) with (genToCart cube4 w2). change (posd 3) with (genToCart cube4 w3). change (posd 4) with (genToCart cube4 w4). unfold w1, w2, w3, w4. rewrite !cube_cart. split; [|split; [|split]]; f_equal; lra.
Qed.
Lemma separationsd : separations pe_vec (oMinLen cube4) posd Gd dD.
Proof.
  assert (X : forall i j, (normSq (dD i j) < 4)%R -> nearest pe_vec (oMinLen cube4) posd i j (dD i j)) by (intros i j H; apply (near_cube posd i j _ (V3 0 0 0)%Z); [by rewrite move_zero|done]).
  destruct posd_all as (P1 & P2 & P3 & P4). intros b k i j Hb Hi Hj. apply elem_of_list_singleton in Hb. subst b. cbn [bAtoms] in Hi, Hj.
  destruct k as [|[|[|[|]]]]; try done; cbn in Hi, Hj; injection Hi as <-; injection Hj as <-; (split; apply X); unfold dD; rewrite ?P1, ?P2, ?P3, ?P4; unfold normSq, vdot, vsub; cbn [vx vy vz]; lra.
Qed.
Definition unitK : cdihedral := CD (fun _ => 1%R) 1.
Lemma sqrt16 : sqrt (1/16) = (1/4)%R.
Proof. replace (1/16)%R with (1/4 * (1/4))%R by lra. apply sqrt_square. lra. Qed.
Lemma virial_d : dihedral_w dD (cosine_df unitK) 2 0 (Bond 2 1 0 [1; 2; 3; 4]%Z) = 1%R.
Proof.
  destruct posd_all as (P1 & P2 & P3 & P4). unfold dihedral_w, cosine_df, dD. cbn [bAtoms bType]. rewrite P1, P2, P3, P4. unfold vsub. cbn [vx vy vz].
  replace (5/4 - 3/4)%R with (1/2)%R by lra. replace (5/2 - 2)%R with (1/2)%R by lra. replace (2 - 2)%R with 0%R by lra. replace (5/4 - 5/4)%R with 0%R by lra. replace (5/2 - 5/2)%R with 0%R by lra.
  unfold cd_force, tor_derivs. cbv zeta. unfold cross, normSq, vdot. cbn [vx vy vz].
  replace ((0 * 0 - 0 * (1 / 2)) * (0 * 0 - 0 * (1 / 2)) + (0 * 0 - 1 / 2 * 0) * (0 * 0 - 1 / 2 * 0) + (1 / 2 * (1 / 2) - 0 * 0) * (1 / 2 * (1 / 2) - 0 * 0))%R with (1/16)%R by lra.
  replace ((1 / 2 * (1 / 2) - 0 * 0) * (1 / 2 * (1 / 2) - 0 * 0) + (0 * 0 - 0 * (1 / 2)) * (0 * 0 - 0 * (1 / 2)) + (0 * 0 - 1 / 2 * 0) * (0 * 0 - 1 / 2 * 0))%R with (1/16)%R by lra.
  assert (HT : ~ (1/16 < tor_eps)%R). { unfold tor_eps. lra. }
  destruct (Rlt_dec (1/16) tor_eps); [done|]. rewrite sqrt16. unfold vdivs, vscale, vadd, unitK. cbn [vx vy vz vget vmap cdK]. field.
Qed.
(** The stress of dihedrals is not the sum of their virials: it is zero always. *)
Theorem dd_dihedral_stress_refuted : ~ (forall dims m s G gs0 gs A sh toGen dsq dsr ml s2 sys2 pos d kB kA kD df i j,
  group_system dims G gs0 -> displaced dims m (map gpX gs0) -> slabs dims m s -> populated G (map gpX gs0) -> gexchange s gs0 = Ok gs -> a_metric A toGen dsq dsr ml -> lattice_shift A sh -> same_lists (map gpX gs) s2 ->
  (forall a, a ∈ local_addrs (map gpX gs) \/ a ∈ ghost_addrs (map gpX gs) -> xId (mem_at s2 a) = xId (mem_at (map gpX gs) a) /\ xType (mem_at s2 a) = xType (mem_at (map gpX gs) a)) ->
  update sh s2 = Ok sys2 -> positions sys2 pos -> separations A ml pos G d -> DdGroupSpec.compact toGen sys2 -> shaped kB kA kD G -> a_torsion df ->
  reduce_groups (dihedral_stress dsr df i j kD) (map gpGroups gs) sys2 = Ok (sum_over (kind_bonds kD G) (dihedral_w d df i j))).
Proof.
  intros HA. destruct rund as (gs & HE & HSn). destruct cube_moves as [Hsh HC]. destruct (still dims2 mb sb Gd sysd gs pe_vec (applyShift cube4) (genToCart cube4) systemd displacedd (proj1 slabsb) HE Hsh HC) as (H1 & H2 & _ & sys2 & HU & HS & HX).
  assert (HP : positions sys2 posd).
  { apply (seen_positions gs sys2 _ posd HSn HS HX). intros r x Hx u Hu. at2 r Hx; cbn [fst] in Hu; rewrite ?elem_of_cons, elem_of_nil in Hu; [|done]. destruct Hu as [->|[->|[->|[->|[]]]]]; done. }
  assert (HCm : DdGroupSpec.compact (cartToGen cube4) sys2).
  { apply (seen_compact gs sys2 _ HSn HS HX). intros r x Hx u v i Hu Hv Hi. at2 r Hx; cbn [fst snd app] in Hu, Hv; rewrite ?elem_of_cons, elem_of_nil in Hu, Hv; [|done]. destruct Hu as [->|[->|[->|[->|[]]]]], Hv as [->|[->|[->|[->|[]]]]]; axes i Hi; cbn [vget vx vy vz snd w1 w2 w3 w4]; rabs. }
  assert (HSh : shaped 0 1 2 Gd) by (apply Forall_singleton; cbn; split; [done|split; done]).
  pose proof (HA dims2 mb sb Gd sysd gs pe_vec (applyShift cube4) (cartToGen cube4) (distanceSq cube4) (distanceSq_dr cube4) (oMinLen cube4) _ sys2 posd dD 0 1 2 (cosine_df unitK) 2 0 systemd displacedd (proj1 slabsb) populatedd HE cube_metric Hsh H1 H2 HU HP separationsd HCm HSh (at_cosine unitK)) as X.
  pose proof (dd_dihedral_stress_of dims2 mb sb Gd sysd gs systemd displacedd (proj1 slabsb) populatedd HE pe_vec (applyShift cube4) (cartToGen cube4) (distanceSq cube4) (distanceSq_dr cube4) (oMinLen cube4) cube_metric Hsh _ sys2 H1 H2 HU posd dD 0 1 2 HP separationsd HCm HSh) as Y.
  specialize (Y (cosine_df unitK) 2 0). rewrite X in Y. injection Y as Y. cbn [kind_bonds Gd List.filter Nat.eqb bKind] in Y. rewrite !sum_cons in Y. repeat match type of Y with context [sum_over [] ?f] => change (sum_over [] f) with 0%R in Y end.
  rewrite virial_d in Y. unfold dihedral_w in Y. cbn [bAtoms] in Y. rewrite (torsion_flat _ _ _ _ (at_cosine unitK)) in Y. cbn [vx vy vz vget] in Y. lra.
Qed.

Print Assumptions dd_group_energies.
Print Assumptions dd_group_stress.
Print Assumptions dd_external_energy.
Print Assumptions dd_all_forces.
Print Assumptions dd_group_momentum.
Print Assumptions dd_dihedral_stress_of.
Print Assumptions dd_dihedral_stress_zero.
Print Assumptions dd_dihedral_stress_refuted.
