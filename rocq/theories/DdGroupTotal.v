(** What all processors together compute for covalent groups. *)
From Verif Require Import Base Containers Vec3 OrthoModel BoxSpec OrthoSpec MonoModel MonoSpec PlanModel DomainModel SpeciesModel SpeciesProofs EnergySpec EnergyProofs NbrModel ExchModel ExchSpec ExchUpdSpec ExchProofs ExchStart ExchLinks ExchUpdate GExchModel GExchSpec DdPairModel DdPairSpec DdPairExch DdPairProofs DdPairRuns DdPairTotal DdPairProps DdGroupModel DdGroupSpec DdGroupProofs.
From Coq Require Import Reals Lra.
Local Open Scope nat_scope.

Global Instance bond_eq_dec : EqDecision bond.
Proof. intros x y. unfold Decision. decide equality; solve_decision. Defined.

Lemma nodup_bonds G : NoDup (map bkey G) -> NoDup G.
Proof. apply NoDup_fmap_1. Qed.
Lemma nodup_kind k G : NoDup G -> NoDup (kind_bonds k G).
Proof. intros H. unfold kind_bonds. rewrite NoDup_ListNoDup in *. by apply List.NoDup_filter. Qed.
Lemma lists_alike cut2 fo rev p q q' : computeForcesList cut2 fo rev p q = Ok q' -> exists m, q' = with_mem q m /\ alike (xpMem q) m.
Proof.
  unfold computeForcesList. destruct rev.
  - destruct (all_pairs p) as [l| |]; [|done..]. cbn [obind]. intros [= <-]. eexists. split; [done|]. rewrite rev_fold. apply fold_fstep.
  - set (gh := xpGhosts q). intros H. destruct (force_blocks _ _ _ _ _ _ _) as [m| |] eqn:E; [|done..]. injection H as <-. exists m. split; [done|].
    assert (HB : forall fuel j i m m', force_blocks cut2 fo gh fuel j i m = Ok m' -> alike m m').
    { clear. induction fuel as [|fuel IH]; intros j i m m'; cbn [force_blocks]; [intros [= <-]; apply alike_refl|]. destruct (decide (j = 0)); [intros [= <-]; apply alike_refl|]. cbn zeta.
      destruct (dit_take _ _) as [[l i']| |]; [|done..]. cbn [obind fst snd]. intros H. eapply alike_trans; [|by eapply IH]. unfold force_block. rewrite (block_fold cut2 fo gh l m m) by apply alike_refl. apply fold_fstep. }
    by eapply HB.
Qed.
Lemma mem_with_with q m m' : with_mem (with_mem q m) m' = with_mem q m'.
Proof. done. Qed.

Lemma lists_sym s1 s2 : same_lists s1 s2 -> same_lists s2 s1.
Proof. intros H. apply Forall2_flip. eapply Forall2_impl; [exact H|]. intros p q (? & ? & ? & E1 & E2). split; [done|]. split; [done|]. split; [done|]. split; intros i j; [by rewrite E1|by rewrite E2]. Qed.
Lemma lists_trans s1 s2 s3 : same_lists s1 s2 -> same_lists s2 s3 -> same_lists s1 s3.
Proof.
  intros H1 H2. apply Forall2_same_length_lookup_2; [by rewrite (Forall2_length _ _ _ H1), (Forall2_length _ _ _ H2)|]. intros r p q Hp Hq. destruct (Forall2_lookup_l _ _ _ _ _ H1 Hp) as (x & Hx & A1 & A2 & A3 & A4 & A5). destruct (Forall2_lookup_l _ _ _ _ _ H2 Hx) as (q' & Hq' & B1 & B2 & B3 & B4 & B5).
  assert (q' = q) as -> by congruence. split; [congruence|]. split; [congruence|]. split; [congruence|]. split; intros i j; [by rewrite B4|by rewrite B5].
Qed.

Section total.
  Context (A : nat -> vec3 R) (toGen : vec3 R -> vec3 R) (dsq : vec3 R -> vec3 R -> R) (dsr : vec3 R -> vec3 R -> R * vec3 R) (ml : R) (HM : a_metric A toGen dsq dsr ml).
  Context (G : list bond) (gs : list gproc) (own : owners) (sys2 : list xproc) (pos : Z -> vec3 R) (d : Z -> Z -> vec3 R) (kB kA kD : nat).
  Context (HK : NoDup (map bkey G)) (HI : NoDup (map (fun u => xId u.2) (held (map gpX gs)))) (HP : populated G (map gpX gs)) (HSh : shaped kB kA kD G).
  Context (HG : Forall (groups_ok G) gs) (HA : Forall points_all gs) (HL : linked (map gpX gs) own) (HF : follows A own (map gpX gs) sys2).
  Context (Hpos : positions sys2 pos) (HS : separations A ml pos G d) (HC : DdGroupSpec.compact toGen sys2).

  Lemma now_at r p : gs !! r = Some p -> exists q, sys2 !! r = Some q /\ xpLocals q = xpLocals (gpX p) /\ xpGhosts q = xpGhosts (gpX p).
  Proof.
    intros Hr. destruct (same_lookup _ sys2 r (gpX p) (fl_lists _ _ _ _ HF)) as (q & Hq & _ & H1 & H2); [by rewrite list_lookup_fmap, Hr|]. eauto.
  Qed.
  Lemma len2 : length sys2 = length gs.
  Proof. rewrite <- (Forall2_length _ _ _ (fl_lists _ _ _ _ HF)). apply map_length. Qed.
  Lemma at_now r q : sys2 !! r = Some q -> exists p, gs !! r = Some p /\ xpLocals q = xpLocals (gpX p) /\ xpGhosts q = xpGhosts (gpX p).
  Proof.
    intros Hq. destruct (lookup_lt_is_Some_2 gs r) as [p Hp]; [rewrite <- len2; by eapply lookup_lt_Some|]. destruct (now_at r p Hp) as (q' & Hq' & H). assert (q' = q) as -> by congruence. eauto.
  Qed.
  Lemma pos_now r p q : gs !! r = Some p -> sys2 !! r = Some q -> forall h, h ∈ xpLocals q ++ xpGhosts q -> exists n, xPos (xpMem q h) = lattice_move A (pos (xId (xpMem (gpX p) h))) n.
  Proof.
    intros Hp Hq h Hh. destruct (now_at r p Hp) as (q' & Hq' & E1 & E2). assert (q' = q) as -> by congruence. rewrite E1, E2 in Hh. assert (Hp' : map gpX gs !! r = Some (gpX p)) by (by rewrite list_lookup_fmap, Hp).
    pose proof (same_local _ _ (fl_lists _ _ _ _ HF)) as ELs. apply elem_of_app in Hh as [Hh|Hh].
    - assert (Ha : (r, h) ∈ local_addrs (map gpX gs)) by (apply elem_local; by exists (gpX p)). exists (V3 0 0 0)%Z. rewrite move_zero. pose proof (Hpos (r, h)) as X. rewrite ELs in X. specialize (X Ha).
      rewrite (proj1 (fl_atoms _ _ _ _ HF (r, h) (or_introl Ha))) in X. rewrite (mem_at_some _ _ _ _ Hp'), (mem_at_some _ _ _ _ Hq) in X. by rewrite X.
    - assert (Ha : (r, h) ∈ ghost_addrs (map gpX gs)) by (apply elem_ghost; by exists (gpX p)). destruct (li_own _ _ HL _ Ha) as (Hl & EI & _). exists (own (r, h)).2. pose proof (fl_pos _ _ _ _ HF _ Ha) as X. rewrite (mem_at_some _ _ _ _ Hq) in X. rewrite X.
      pose proof (Hpos (own (r, h)).1) as Y. rewrite ELs in Y. specialize (Y Hl). rewrite (proj1 (fl_atoms _ _ _ _ HF _ (or_introl Hl))) in Y. rewrite (mem_at_some _ _ _ _ Hp') in EI. by rewrite EI, Y.
  Qed.
  Lemma compact_now r q : sys2 !! r = Some q -> forall h h' i, h ∈ xpLocals q ++ xpGhosts q -> h' ∈ xpLocals q ++ xpGhosts q -> i < 3 -> (Rabs (vget (toGen (xPos (xpMem q h))) i - vget (toGen (xPos (xpMem q h'))) i) <= 3/2)%R.
  Proof. intros Hq h h' i. by apply (HC r q). Qed.
  Lemma gok r p : gs !! r = Some p -> groups_ok G p /\ points_all p.
  Proof. intros H. apply elem_of_list_lookup_2 in H. split; [by apply (proj1 (Forall_forall _ _) HG)|by apply (proj1 (Forall_forall _ _) HA)]. Qed.
  Lemma group_shape r p g : gs !! r = Some p -> g ∈ gpGroups p -> (gKind g = kB -> length (gAtoms g) = 2) /\ (gKind g = kA -> length (gAtoms g) = 3) /\ (gKind g = kD -> length (gAtoms g) = 4).
  Proof.
    intros Hr Hg. destruct (gok r p Hr) as [([_ SL _] & _) _]. destruct (proj1 (SL (bond_of g))) as [H1 _]; [apply elem_of_map; eauto|]. exact (proj1 (Forall_forall _ _) HSh (bond_of g) H1).
  Qed.

  (** ** Sums over processors *)
  Lemma stored_sum k r p (F : bond -> R) : gs !! r = Some p -> (forall b, b ∈ G -> (forall id, id ∈ bAtoms b -> home p id = false) -> F b = 0%R) ->
    sum_over (kind_groups k (gpGroups p)) (fun g => F (bond_of g)) = sum_over (kind_bonds k G) F.
  Proof.
    intros Hr H0. destruct (gok r p Hr) as [([SO SL _] & _) _]. rewrite <- (sum_map bond_of F). apply sum_sub.
    - apply NoDup_fmap_1 with bkey. apply nodup_kind with (k := k) in SO || idtac.
      assert (X : forall l, NoDup (map (fun g => bkey (bond_of g)) l) -> NoDup (bkey <$> map bond_of (kind_groups k l))).
      { clear. intros l. change (bkey <$> map bond_of (kind_groups k l)) with (map bkey (map bond_of (kind_groups k l))). rewrite map_map. induction l as [|g l IH]; [done|]. cbn [map]. intros [H1 H2]%NoDup_cons. unfold kind_groups in *. cbn [List.filter]. destruct (Nat.eqb (gKind g) k); [|by apply IH].
        cbn [map]. apply NoDup_cons. split; [|by apply IH]. intros X. apply H1. apply elem_of_map in X as (g' & E & Hg'). apply elem_of_map. exists g'. split; [done|]. rewrite elem_of_list_In, filter_In in Hg'. apply elem_of_list_In. tauto. }
      by apply X.
    - intros b Hb. apply elem_of_map in Hb as (g & -> & Hg). apply elem_kind in Hg as [Hg Ek]. apply elem_bonds. split; [|done]. apply (SL (bond_of g)). apply elem_of_map. eauto.
    - apply nodup_kind. by apply nodup_bonds.
    - intros b Hb Hn. apply elem_bonds in Hb as [Hb Ek]. apply H0; [done|]. intros id Hid. apply not_true_is_false. intros Hh. apply Hn. unfold home in Hh. apply bool_decide_eq_true in Hh. apply elem_of_map in Hh as (h & E & Hh).
      assert (Hin : b ∈ map bond_of (gpGroups p)). { apply SL. split; [done|]. exists (xpMem (gpX p) h). split; [unfold locals; apply elem_of_map; eauto|by rewrite <- E]. }
      apply elem_of_map in Hin as (g & Eb & Hg). apply elem_of_map. exists g. split; [done|]. apply elem_kind. split; [done|]. by rewrite Eb in Ek.
  Qed.
  Lemma home_held r p id : gs !! r = Some p -> home p id = true -> exists a, (r, a) ∈ held (map gpX gs) /\ xId a = id.
  Proof.
    intros Hr Hh. unfold home in Hh. apply bool_decide_eq_true in Hh. apply elem_of_map in Hh as (h & -> & Hh). exists (xpMem (gpX p) h). split; [|done]. apply (held_local _ _ (gpX p)); [by rewrite list_lookup_fmap, Hr|]. unfold locals. apply elem_of_map. eauto.
  Qed.
  Lemma nodup_inj {X Y} (f : X -> Y) l x y : NoDup (map f l) -> x ∈ l -> y ∈ l -> f x = f y -> x = y.
  Proof.
    intros HN Hx Hy E. apply elem_of_list_lookup in Hx as [i Hi]. apply elem_of_list_lookup in Hy as [j Hj].
    assert (i = j) as ->; [|congruence]. apply (NoDup_lookup (map f l) i j (f x)); [done|by rewrite list_lookup_fmap, Hi|by rewrite list_lookup_fmap, Hj, E].
  Qed.
  (** Every atom of a group is at home once. *)
  Lemma ind_once b id : b ∈ G -> id ∈ bAtoms b -> sum_over gs (fun p => DdGroupProofs.ind p id) = 1%R.
  Proof.
    intros Hb Hid. destruct (HP b id Hb Hid) as ([r a] & Hu & E). cbn [snd] in E. pose proof Hu as Hu'. unfold held in Hu'. apply elem_of_flat_map in Hu' as (r' & Hr' & Hu'). destruct (map gpX gs !! r') as [x|] eqn:Ex; [|by apply elem_of_nil in Hu'].
    apply elem_of_map in Hu' as (a' & E' & Ha). injection E' as <- <-. rewrite list_lookup_fmap in Ex. destruct (gs !! r) as [p|] eqn:Hp; [|done]. injection Ex as <-.
    rewrite sum_at. rewrite (sum_one _ _ r); [|apply NoDup_seq|apply elem_of_seq; apply lookup_lt_Some in Hp; lia|].
    - rewrite Hp. unfold DdGroupProofs.ind, home. rewrite bool_decide_true; [done|]. unfold locals in Ha. apply elem_of_map in Ha as (h & -> & Hh). apply elem_of_map. eauto.
    - intros r' _ Hne. destruct (gs !! r') as [p'|] eqn:Hp'; [|done]. unfold DdGroupProofs.ind. destruct (home p' id) eqn:Hh; [|done]. exfalso. destruct (home_held r' p' id Hp' Hh) as (a' & Ha' & Ea'). pose proof (nodup_inj _ _ _ _ HI Hu Ha' (eq_trans E (eq_sym Ea'))) as X. injection X as <- _. done.
  Qed.
  Lemma counted k (E : bond -> R) : sum_over gs (fun p => sum_over (kind_groups k (gpGroups p)) (fun g => cnt p (bond_of g) * E (bond_of g)))%R = sum_over (kind_bonds k G) (fun b => INR (length (bAtoms b)) * E b)%R.
  Proof.
    rewrite (sum_ext _ (fun p => sum_over (kind_bonds k G) (fun b => cnt p b * E b)%R)).
    2:{ intros p Hp. apply elem_of_list_lookup in Hp as [r Hr]. apply (stored_sum k r p (fun b => cnt p b * E b)%R Hr). intros b Hb H. unfold cnt. rewrite sum_0; [lra|]. intros id Hid. unfold DdGroupProofs.ind. by rewrite H. }
    rewrite sum_swap. apply sum_ext. intros b Hb. apply elem_bonds in Hb as [Hb _]. rewrite (sum_ext _ (fun p => E b * cnt p b)%R) by (intros; lra). rewrite sum_scale. unfold cnt. rewrite sum_swap.
    rewrite (sum_ext _ (fun _ => 1%R)) by (intros id Hid; by apply (ind_once b)). assert (X : forall l : list Z, sum_over l (fun _ => 1%R) = INR (length l)); [|rewrite X; lra].
    intros l. induction l as [|x l IH]; [done|]. rewrite sum_cons, IH. cbn [length]. rewrite S_INR. lra.
  Qed.
  (** Results of all processors. *)
  Lemma reduced (f : list ggroup -> xproc -> outcome R) (v : gproc -> R) : (forall r p q, gs !! r = Some p -> sys2 !! r = Some q -> f (gpGroups p) q = Ok (v p)) -> reduce_groups f (map gpGroups gs) sys2 = Ok (sum_over gs v).
  Proof.
    intros H. unfold reduce_groups. assert (E : mapO (fun c => f c.1 c.2) (zip (map gpGroups gs) sys2) = Ok (map v gs)).
    { apply mapO_Ok. apply Forall2_same_length_lookup_2; [rewrite zip_with_length, !map_length, len2; lia|]. intros r [g q] x Hz Hx. rewrite lookup_zip_with in Hz. rewrite list_lookup_fmap in Hz. pose proof (list_lookup_fmap v gs r) as EX. change (v <$> gs) with (map v gs) in EX. rewrite Hx in EX. clear Hx. rename EX into Hx. destruct (gs !! r) as [p|] eqn:Hp; [|done]. cbn in Hz, Hx. destruct (sys2 !! r) as [q'|] eqn:Hq; [|done]. cbn in Hz. injection Hz as <- <-. injection Hx as ->. by apply (H r). }
    rewrite E. cbn [obind]. done.
  Qed.
  Lemma reduced_kind k n (f : list ggroup -> xproc -> outcome R) (E : bond -> R) : 0 < n -> (forall b, b ∈ G -> bKind b = k -> length (bAtoms b) = n) ->
    (forall r p q, gs !! r = Some p -> sys2 !! r = Some q -> f (gpGroups p) q = Ok (sum_over (kind_groups k (gpGroups p)) (fun g => cnt p (bond_of g) * (1 / INR n * E (bond_of g))))%R) ->
    reduce_groups f (map gpGroups gs) sys2 = Ok (sum_over (kind_bonds k G) E).
  Proof.
    intros Hn Hl H. rewrite (reduced f _ H). f_equal. rewrite (counted k (fun b => 1 / INR n * E b)%R). apply sum_ext. intros b Hb. apply elem_bonds in Hb as [Hb Ek]. rewrite (Hl b Hb Ek). apply lt_0_INR in Hn. field. lra.
  Qed.
  Lemma shape2 b : b ∈ G -> bKind b = kB -> length (bAtoms b) = 2.
  Proof. intros Hb. by apply (proj1 (Forall_forall _ _) HSh b Hb). Qed.
  Lemma shape3 b : b ∈ G -> bKind b = kA -> length (bAtoms b) = 3.
  Proof. intros Hb. by apply (proj1 (Forall_forall _ _) HSh b Hb). Qed.
  Lemma shape4 b : b ∈ G -> bKind b = kD -> length (bAtoms b) = 4.
  Proof. intros Hb. by apply (proj1 (Forall_forall _ _) HSh b Hb). Qed.

  Context (bu bfo : R -> Z -> R) (ae : R -> Z -> R) (af : vec3 R -> vec3 R -> Z -> vec3 R * vec3 R).
  Context (de : vec3 R -> vec3 R -> vec3 R -> Z -> R) (df : vec3 R -> vec3 R -> vec3 R -> Z -> vec3 (vec3 R)) (xe : vec3 R -> Z -> R) (xf : vec3 R -> Z -> vec3 R).
  Ltac one_proc L := intros r p q Hp Hq; destruct (gok r p Hp) as [G1 G2]; destruct (now_at r p Hp) as (q' & Hq' & E1 & E2); assert (q' = q) as -> by congruence; rewrite (L A toGen dsq dsr ml HM pos d G HS p q G1 G2 E1 E2 (pos_now r p q Hp Hq) (compact_now r q Hq)); [done|intros g Hg; by apply (group_shape r p g Hp Hg)].
  Lemma total_bond_energy : reduce_groups (bond_energy dsq bu kB) (map gpGroups gs) sys2 = Ok (sum_over (kind_bonds kB G) (bond_u d bu)).
  Proof. apply (reduced_kind kB 2); [lia|exact shape2|]. change (INR 2) with 2%R. one_proc bond_energy_val. Qed.
  Lemma total_bond_stress i j : reduce_groups (bond_stress dsr bfo i j kB) (map gpGroups gs) sys2 = Ok (sum_over (kind_bonds kB G) (bond_w d bfo i j)).
  Proof. apply (reduced_kind kB 2); [lia|exact shape2|]. change (INR 2) with 2%R. one_proc bond_stress_val. Qed.
  Lemma total_angle_energy : reduce_groups (angle_energy dsr ae kA) (map gpGroups gs) sys2 = Ok (sum_over (kind_bonds kA G) (angle_u d ae)).
  Proof. apply (reduced_kind kA 3); [lia|exact shape3|]. replace (INR 3) with 3%R by (cbn; lra). one_proc angle_energy_val. Qed.
  Lemma total_angle_stress i j : reduce_groups (angle_stress dsr af i j kA) (map gpGroups gs) sys2 = Ok (sum_over (kind_bonds kA G) (angle_w d af i j)).
  Proof. apply (reduced_kind kA 3); [lia|exact shape3|]. replace (INR 3) with 3%R by (cbn; lra). one_proc angle_stress_val. Qed.
  Lemma total_dihedral_energy : reduce_groups (dihedral_energy dsr de kD) (map gpGroups gs) sys2 = Ok (sum_over (kind_bonds kD G) (dihedral_u d de)).
  Proof. apply (reduced_kind kD 4); [lia|exact shape4|]. replace (INR 4) with 4%R by (cbn; lra). one_proc dihedral_energy_val. Qed.
  Lemma total_dihedral_stress i j : reduce_groups (dihedral_stress dsr df i j kD) (map gpGroups gs) sys2 = Ok (sum_over (kind_bonds kD G) (dihedral_w d (fun d1 d2 _ => df d1 d2 d2) i j)).
  Proof. apply (reduced_kind kD 4); [lia|exact shape4|]. replace (INR 4) with 4%R by (cbn; lra). one_proc dihedral_stress_val. Qed.

  (** ** Forces *)
  Context (cut2 : Z -> Z -> R) (fo : R -> Z -> Z -> R) (rev : bool) (lists : list dplist) (HLen : length lists = length sys2).
  (** Force of all groups on an atom, and of the external potential. *)
  Definition bonded (id : Z) (c : nat) : R :=
    (sum_over (kind_bonds kB G) (fun b => on_atom id c b (bond_fs d bfo b)) + sum_over (kind_bonds kA G) (fun b => on_atom id c b (angle_fs d af b)) + sum_over (kind_bonds kD G) (fun b => on_atom id c b (dihedral_fs d df b)))%R.
  Lemma home_local r p h : gs !! r = Some p -> h ∈ xpLocals (gpX p) -> home p (xId (xpMem (gpX p) h)) = true.
  Proof. intros Hr Hh. unfold home. apply bool_decide_eq_true. apply elem_of_map. eauto. Qed.
  Lemma on_none id c b fs : id ∉ bAtoms b -> on_atom id c b fs = 0%R.
  Proof.
    intros H. unfold on_atom. apply sum_0. intros [i f] Hi. cbn [fst snd]. destruct (decide (i = id)) as [->|]; [|done]. exfalso. apply H. rewrite elem_of_list_In in Hi. apply in_combine_l in Hi. by apply elem_of_list_In.
  Qed.
  Lemma stored_on k r p h c (fs : bond -> list (vec3 R)) : gs !! r = Some p -> h ∈ xpLocals (gpX p) ->
    sum_over (kind_groups k (gpGroups p)) (fun g => on_atom (xId (xpMem (gpX p) h)) c (bond_of g) (fs (bond_of g))) = sum_over (kind_bonds k G) (fun b => on_atom (xId (xpMem (gpX p) h)) c b (fs b)).
  Proof.
    intros Hr Hh. apply (stored_sum k r p (fun b => on_atom (xId (xpMem (gpX p) h)) c b (fs b)) Hr). intros b Hb H. apply on_none. intros Hi. apply H in Hi. rewrite (home_local r p h Hr Hh) in Hi. done.
  Qed.
  Lemma nodup_locals r p : gs !! r = Some p -> NoDup (xpLocals (gpX p)).
  Proof.
    intros Hr. pose proof HI as H. unfold held in H. assert (Hs : r ∈ seq 0 (length (map gpX gs))) by (apply elem_of_seq; rewrite map_length; apply lookup_lt_Some in Hr; lia).
    apply elem_of_list_split in Hs as (l1 & l2 & El). rewrite El, flat_map_app in H. cbn [flat_map] in H. rewrite !map_app in H. apply NoDup_app in H as (_ & _ & H). apply NoDup_app in H as (H & _ & _).
    rewrite list_lookup_fmap, Hr in H. cbn [fmap option_fmap option_map] in H. unfold locals in H. rewrite !map_map in H. cbn [snd] in H. by apply NoDup_fmap_1 in H.
  Qed.
  Lemma put_same a f g : put_force (put_force a f) g = put_force a g.
  Proof. done. Qed.
  Lemma external_val l (m m0 : nat -> xatom) : NoDup l -> alike m0 m -> let m' := fold_left (fun m h => add_force m (h, xf (xPos (m h)) (xType (m h)))) l m in
    alike m m' /\ forall h c, c < 3 -> vget (xForce (m' h)) c = (vget (xForce (m h)) c + if decide (h ∈ l) then vget (xf (xPos (m0 h)) (xType (m0 h))) c else 0)%R.
  Proof.
    revert m. induction l as [|x l IH]; intros m HN Hm; cbn [fold_left]; cbv zeta.
    - split; [apply alike_refl|]. intros h c Hc. rewrite decide_False by apply not_elem_of_nil. lra.
    - apply NoDup_cons in HN as [Hx HN]. set (m1 := add_force m (x, xf (xPos (m x)) (xType (m x)))). assert (H1 : alike m m1) by apply alike_add. destruct (IH m1 HN (alike_trans _ _ _ Hm H1)) as [H2 H3]. split; [by eapply alike_trans|].
      intros h c Hc. rewrite H3 by done. unfold m1. rewrite add_comp by done. destruct (Hm x) as [f Ef]. rewrite Ef. cbn [put_force xPos xType]. destruct (decide (x = h)) as [->|Hne].
      + rewrite decide_False by done. rewrite decide_True by apply elem_of_list_here. lra.
      + destruct (decide (h ∈ l)) as [Hi|Hi]; [rewrite decide_True by (by apply elem_of_list_further); lra|]. rewrite decide_False; [lra|]. intros [|]%elem_of_cons; [congruence|done].
  Qed.
  Lemma proc_run r p q pl q4 : gs !! r = Some p -> sys2 !! r = Some q -> computeForcesList cut2 fo rev pl (zero_forces rev q) = Ok q4 ->
    exists m', proc_forces dsr bfo af df xf cut2 fo kB kA kD rev pl (gpGroups p) q = Ok (with_mem q m') /\ alike (xpMem q) m' /\
      (forall h c, h ∈ xpLocals q -> c < 3 -> vget (xForce (m' h)) c = (vget (xForce (xpMem q4 h)) c + bonded (xId (xpMem q h)) c + vget (xf (xPos (xpMem q h)) (xType (xpMem q h))) c)%R) /\
      forall h c, h ∈ xpGhosts q -> h ∉ xpLocals q -> c < 3 -> vget (xForce (m' h)) c = vget (xForce (xpMem q4 h)) c.
  Proof.
    intros Hp Hq H4. destruct (lists_alike _ _ _ _ _ _ H4) as (m & -> & Hm). unfold proc_forces. rewrite H4. cbn [obind].
    assert (Hz : alike (xpMem q) (xpMem (zero_forces rev q))). { intros h. unfold zero_forces. cbn [xpMem with_mem]. destruct (decide _); [by eexists|]. exists (xForce (xpMem q h)). by destruct (xpMem q h). }
    pose proof (alike_trans _ _ _ Hz Hm) as Hm'. replace (with_mem (zero_forces rev q) m) with (with_mem q m) by done.
    destruct (gok r p Hp) as [G1 G2]. destruct (now_at r p Hp) as (q' & Hq' & E1 & E2). assert (q' = q) as -> by congruence. pose proof (pos_now r p q Hp Hq) as X1. pose proof (compact_now r q Hq) as X2. pose proof (fun g Hg => group_shape r p g Hp Hg) as X3.
    destruct (bond_forces_val A toGen dsq dsr ml HM pos d G HS p q G1 G2 E1 E2 X1 X2 bu bfo ae kB m) as (m1 & R1 & A1 & F1 & N1); [intros g Hg; by apply X3|done|]. rewrite R1. cbn [obind]. pose proof (alike_trans _ _ _ Hm' A1) as B1.
    destruct (angle_forces_val A toGen dsq dsr ml HM pos d G HS p q G1 G2 E1 E2 X1 X2 bu bfo ae af kA m1) as (m2 & R2 & A2 & F2 & N2); [intros g Hg; by apply X3|done|]. rewrite R2. cbn [obind]. pose proof (alike_trans _ _ _ B1 A2) as B2.
    destruct (dihedral_forces_val A toGen dsq dsr ml HM pos d G HS p q G1 G2 E1 E2 X1 X2 bu bfo ae df kD m2) as (m3 & R3 & A3 & F3 & N3); [intros g Hg; by apply X3|done|]. rewrite R3. cbn [obind]. pose proof (alike_trans _ _ _ B2 A3) as B3.
    assert (HN : NoDup (xpLocals q)) by (rewrite E1; by apply (nodup_locals r)). destruct (external_val (xpLocals q) m3 (xpMem q) HN B3) as [A4 F4]. eexists. split; [unfold external_forces; cbn [xpMem xpLocals with_mem]; reflexivity|]. split; [by eapply alike_trans|]. split.
    - intros h c Hh Hc. rewrite F4, decide_True, F3, F2, F1 by done. cbn [xpMem with_mem]. rewrite E1 in Hh. rewrite !(stored_on _ r p h c) by done. unfold bonded.
      assert (EI : xId (xpMem (gpX p) h) = xId (xpMem q h)). { pose proof (fl_atoms _ _ _ _ HF (r, h)) as Y. assert (Ha : (r, h) ∈ local_addrs (map gpX gs)). { apply elem_local. exists (gpX p). cbn [fst snd]. rewrite list_lookup_fmap, Hp. done. }
        destruct (Y (or_introl Ha)) as [Y1 _]. rewrite (mem_at_some _ _ _ _ Hq) in Y1. rewrite (mem_at_some _ r (gpX p)) in Y1 by (by rewrite list_lookup_fmap, Hp). done. }
      rewrite EI. lra.
    - intros h c Hh Hn Hc. rewrite F4, decide_False, N3, N2, N1 by done. cbn [xpMem with_mem]. lra.
  Qed.
  Lemma same_alike (s1 s2 : list xproc) : Forall2 (fun q q' => exists m, q' = with_mem q m) s1 s2 -> same_lists s1 s2.
  Proof. intros H. eapply Forall2_impl; [exact H|]. intros q q' [m ->]. done. Qed.
  Context (dims : vec3 Z) (s : vec3 R) (HIP : in_place dims s (map gpX gs)).
  Theorem all_forces s5 : computePairForces cut2 fo rev lists sys2 = Ok s5 ->
    exists s6, computeForces dsr bfo af df xf cut2 fo kB kA kD rev lists (map gpGroups gs) sys2 = Ok s6 /\ same_lists sys2 s6 /\
      (forall a, a ∈ local_addrs sys2 -> exists f, mem_at s6 a = put_force (mem_at sys2 a) f) /\
      forall a c, a ∈ local_addrs sys2 -> c < 3 -> vget (xForce (mem_at s6 a)) c = (vget (xForce (mem_at s5 a)) c + bonded (xId (mem_at sys2 a)) c + vget (xf (xPos (mem_at sys2 a)) (xType (mem_at sys2 a))) c)%R.
  Proof.
    unfold computePairForces. intros H5. destruct (mapO _ (zip lists sys2)) as [s4| |] eqn:E4; [|done..]. cbn [obind] in H5. apply mapO_Ok in E4.
    pose proof len2 as HL2.
    assert (HR : forall r p q, gs !! r = Some p -> sys2 !! r = Some q -> exists pl q4, lists !! r = Some pl /\ s4 !! r = Some q4 /\ computeForcesList cut2 fo rev pl (zero_forces rev q) = Ok q4).
    { intros r p q Hp Hq. destruct (lookup_lt_is_Some_2 lists r) as [pl Hpl]; [rewrite HLen; by eapply lookup_lt_Some|]. destruct (Forall2_lookup_l _ _ _ r (pl, q) E4) as (q4 & H4 & E); [by rewrite lookup_zip_with, Hpl, Hq|]. eauto. }
    destruct (mapO_total (fun c => proc_forces dsr bfo af df xf cut2 fo kB kA kD rev c.1.1 c.1.2 c.2) (zip (zip lists (map gpGroups gs)) sys2)) as [s6 H6].
    { intros r [[pl g] q] Hr. rewrite !lookup_zip_with in Hr. rewrite list_lookup_fmap in Hr. destruct (lists !! r) as [pl'|] eqn:Hpl; [|done]. destruct (gs !! r) as [p|] eqn:Hp; [|done]. destruct (sys2 !! r) as [q'|] eqn:Hq; [|done]. injection Hr as <- <- <-.
      destruct (HR r p q' Hp Hq) as (pl & q4 & Hpl' & _ & E). assert (pl' = pl) as -> by congruence. destruct (proc_run r p q' pl q4 Hp Hq E) as (m' & E' & _). cbn [fst snd]. rewrite E'. by eexists. }
    unfold computeForces. rewrite H6. cbn [obind]. apply mapO_Ok in H6.
    assert (HV : forall r p q, gs !! r = Some p -> sys2 !! r = Some q -> exists q4 m', s4 !! r = Some q4 /\ s6 !! r = Some (with_mem q m') /\ alike (xpMem q) m' /\
      (exists m4, q4 = with_mem q m4) /\
      (forall h c, h ∈ xpLocals q -> c < 3 -> vget (xForce (m' h)) c = (vget (xForce (xpMem q4 h)) c + bonded (xId (xpMem q h)) c + vget (xf (xPos (xpMem q h)) (xType (xpMem q h))) c)%R) /\
      forall h c, h ∈ xpGhosts q -> h ∉ xpLocals q -> c < 3 -> vget (xForce (m' h)) c = vget (xForce (xpMem q4 h)) c).
    { intros r p q Hp Hq. destruct (HR r p q Hp Hq) as (pl & q4 & Hpl & H4 & E). destruct (proc_run r p q pl q4 Hp Hq E) as (m' & E' & Am & Fl & Fg). exists q4, m'. split; [done|].
      destruct (Forall2_lookup_l _ _ _ r ((pl, gpGroups p), q) H6) as (q6 & Hq6 & E6); [by rewrite !lookup_zip_with, list_lookup_fmap, Hpl, Hp, Hq|]. cbn [fst snd] in E6. rewrite E' in E6. injection E6 as <-. split; [done|]. split; [done|]. split; [|done].
      destruct (lists_alike _ _ _ _ _ _ E) as (m & -> & _). by exists m. }
    assert (L4 : length s4 = length sys2) by (rewrite <- (Forall2_length _ _ _ E4), zip_with_length; lia).
    assert (L6 : length s6 = length sys2) by (rewrite <- (Forall2_length _ _ _ H6), !zip_with_length, map_length; lia).
    assert (S4 : same_lists sys2 s4). { apply same_alike. apply Forall2_same_length_lookup_2; [done|]. intros r q q4 Hq H4. destruct (at_now r q Hq) as (p & Hp & _). destruct (HV r p q Hp Hq) as (q4' & m' & H4' & _ & _ & X & _). assert (q4' = q4) as -> by congruence. done. }
    assert (S6 : same_lists sys2 s6). { apply same_alike. apply Forall2_same_length_lookup_2; [done|]. intros r q q6 Hq Hq6. destruct (at_now r q Hq) as (p & Hp & _). destruct (HV r p q Hp Hq) as (q4' & m' & _ & H6' & _). exists m'. congruence. }
    pose proof (fl_lists _ _ _ _ HF) as S2. pose proof (same_local _ _ S2) as EL.
    assert (AF : forall a, a ∈ local_addrs sys2 -> (exists f, mem_at s6 a = put_force (mem_at sys2 a) f) /\ forall c, c < 3 -> vget (xForce (mem_at s6 a)) c = (vget (xForce (mem_at s4 a)) c + bonded (xId (mem_at sys2 a)) c + vget (xf (xPos (mem_at sys2 a)) (xType (mem_at sys2 a))) c)%R).
    { intros [r h] Ha. apply elem_local in Ha as (q & Hq & Hh). cbn [fst snd] in Hq, Hh. destruct (at_now r q Hq) as (p & Hp & _). destruct (HV r p q Hp Hq) as (q4 & m' & H4 & Hq6 & Am & _ & Fl & _). rewrite (mem_at_some _ _ _ _ Hq), (mem_at_some _ _ _ _ Hq6), (mem_at_some _ _ _ _ H4). cbn [xpMem with_mem]. split; [apply Am|]. intros c Hc. by apply Fl. }
    destruct (decide (rev = true)) as [Hrev|Hrev].
    - rewrite Hrev in H5 |- *. assert (T4 : same_lists (map gpX gs) s4) by exact (lists_trans _ _ _ S2 S4). assert (T6 : same_lists (map gpX gs) s6) by exact (lists_trans _ _ _ S2 S6).
      destruct (li_reverse _ _ HL s4 T4) as (s5' & E5' & HS5 & HF5 & HV5). rewrite H5 in E5'. injection E5' as <-. destruct (li_reverse _ _ HL s6 T6) as (s7 & E7 & HS7 & HF7 & HV7). exists s7. split; [done|]. split; [|split].
      + eapply lists_trans; [|exact HS7]. by apply lists_sym.
      + intros a Ha. rewrite EL in Ha. destruct (HF7 a) as [f Ef]; [by left|]. rewrite <- EL in Ha. destruct (AF a Ha) as [[f' Ef'] _]. exists f. by rewrite Ef, Ef'.
      + intros a c Ha Hc. pose proof (proj2 (AF a Ha) c Hc) as X. rewrite EL in Ha. rewrite (HV7 a c Ha Hc), (HV5 a c Ha Hc), X.
        rewrite (sum_ext (fun b => if decide ((own b).1 = a) then vget (xForce (mem_at s6 b)) c else 0)%R (fun b => if decide ((own b).1 = a) then vget (xForce (mem_at s4 b)) c else 0)%R); [lra|].
        intros [r h] Hb. destruct (decide _); [|done]. pose proof Hb as Hb'. apply elem_ghost in Hb as (x & Hx & Hh). cbn [fst snd] in Hx, Hh. rewrite list_lookup_fmap in Hx. destruct (gs !! r) as [p|] eqn:Hp; [|done]. injection Hx as <-. destruct (now_at r p Hp) as (q & Hq & Eq1 & Eq2).
        destruct (HV r p q Hp Hq) as (q4 & m' & H4 & Hq6 & _ & _ & _ & Fg). rewrite (mem_at_some _ _ _ _ Hq6), (mem_at_some _ _ _ _ H4). apply Fg; [by rewrite Eq2| |done]. rewrite Eq1. intros Hl. apply (local_not_ghost dims s (map gpX gs) HIP (r, h)); [|done]. apply elem_local. exists (gpX p). cbn [fst snd]. by rewrite list_lookup_fmap, Hp.
    - apply not_true_is_false in Hrev. rewrite Hrev in H5 |- *. injection H5 as <-. exists s6. split; [done|]. split; [done|]. split; [intros a Ha; by apply AF|]. intros a c Ha Hc. by apply AF.
  Qed.
End total.
