(** Properties of the nonbonded energies, stresses and forces of the parallel program. *)
From Verif Require Import Base Containers Vec3 PlanModel OrthoModel BoxSpec OrthoSpec OrthoProofs MonoModel MonoSpec MonoProofs DomainModel DomainSpec DomainProofs SpeciesModel SpeciesProofs SimProofs DistSpec EnergySpec EnergyProofs NbrModel NbrSpec NbrProofs NbrProps ExchModel ExchSpec ExchUpdSpec ExchProofs ExchAtoms ExchElem ExchStart ExchGhost ExchCopies ExchFinal ExchProps ExchLinks ExchUpdate ExchUpdProps GExchModel GExchSpec GExchProps DdPairModel DdPairSpec DdPairExch DdPairProofs DdPairRuns DdPairTotal.
From Coq Require Import Reals Lra.
Local Open Scope nat_scope.

(** What all processors together have from their pair lists [lists] at state [sys2]: with [P] the list of all pairs that interact, in both orders, energy, stress and number of
    pairs are sums over [P], halved; and the force on each atom is the sum over the pairs whose first atom it is.  Nothing but forces is changed. *)
Definition pair_sums (A : nat -> vec3 R) (mk : Z -> Z -> bool) (cut2 : Z -> Z -> R) (fo u : R -> Z -> Z -> R) (rev : bool) (lists : list dplist) (sys2 : list xproc) : Prop :=
  exists P, every_pair A mk cut2 sys2 P /\
    reduce Rplus 0%R (energyList u rev) lists sys2 = Ok (1/2 * sum_over P (pair_u u A sys2))%R /\
    (forall i j, reduce Rplus 0%R (stressList cut2 fo i j rev) lists sys2 = Ok (1/2 * sum_over P (pair_w fo A sys2 i j))%R) /\
    (forall q, (forall a b, cut2 a b = q)%R -> (0 <= q)%R -> reduce Z.add 0%Z (nPairList q rev) lists sys2 = Ok (Z.of_nat (length P))) /\
    exists s3, computePairForces cut2 fo rev lists sys2 = Ok s3 /\ same_lists sys2 s3 /\
      (forall a, a ∈ local_addrs sys2 -> exists f, mem_at s3 a = put_force (mem_at sys2 a) f) /\
      forall a c, a ∈ local_addrs sys2 -> c < 3 -> vget (xForce (mem_at s3 a)) c = sum_over P (fun t => if decide (t.1.1 = a) then vget (pair_f fo A sys2 t) c else 0%R).
(** Interactions: symmetric in the types, without energy beyond the cutoff, and no cutoff is larger than [c]. *)
Definition interaction (cut2 : Z -> Z -> R) (fo u : R -> Z -> Z -> R) (c : R) : Prop :=
  symmetric cut2 /\ symmetric3 fo /\ symmetric3 u /\ (forall r a b, ~ (r < cut2 a b)%R -> u r a b = 0%R) /\ (0 <= c)%R /\ forall a b, (cut2 a b <= c * c)%R.
(** Previous lists of a processor, and room for its atoms. *)
Definition can_build (cap : nat) (old : dclist * dplist) (p : xproc) : Prop := a_cell_list old.1 /\ length (xpLocals p) + length (xpGhosts p) <= cap.
(** Without reverse communication, domains must be two cutoffs wide along z. *)
Definition not_thin (rev : bool) (rc : R) (L : vec3 R) (sys : list xproc) : Prop := rev = true \/ Forall (fun p => (2 * (rc / vz L) <= vz (upper (xpDom p)) - vz (lower (xpDom p)))%R) sys.

Section both_boxes.
  Context (C : vec3 R -> vec3 R) (L : vec3 R) (A : nat -> vec3 R) (sh : vec3 R -> nat -> Z -> vec3 R) (n : Z) (Hb : a_dd_box C L A sh n).
  Lemma box_spaced : spaced C L.
  Proof.
    destruct Hb as [b n' B|b B].
    - destruct (owf_a_box b B) as (l & lat & W). by eapply ortho_spaced.
    - destruct (mwf_a_mbox b B) as (l & d & W). by eapply mono_spaced.
  Qed.
  Lemma box_moves : lattice_shift A sh /\ forall g k, C (translate g k) = lattice_move A (C g) k.
  Proof. destruct Hb as [b n' B|b B]; [exact (ortho_lattice b)|exact (mono_lattice b)]. Qed.
  Lemma box_metric rc g : (0 < rc)%R -> metric n (scaled rc L) rc g (fun a => C (g a)).
  Proof. destruct Hb as [b n' B|b B]; intros H; [by apply metric_ortho|by apply metric_mono]. Qed.
  Lemma box_pos rc : (0 < rc)%R -> (0 < vx (scaled rc L) /\ 0 < vy (scaled rc L) /\ 0 < vz (scaled rc L))%R.
  Proof. destruct Hb as [b n' B|b B]; intros H; [by apply scaled_pos, ortho_len_pos|by apply scaled_pos, mono_len_pos]. Qed.
End both_boxes.

Lemma build_listed dims s sys own C L A sh n rc rev mk cap capA : in_place dims s sys -> linked sys own -> off_faces sys -> a_dd_box C L A sh n -> (0 < rc)%R -> symmetric mk -> not_thin rev rc L sys ->
  forall old lists, Forall2 (can_build cap) old sys -> mapO (fun c => build_on cap capA rev rc n C L mk c.1 c.2) (zip old sys) = Ok lists ->
  exists ls, Forall2 (listed_on rev C (scaled rc L) rc n mk) sys ls /\ Forall2 built lists ls /\ Forall (fun p => wide_enough (lower (xpDom p)) (upper (xpDom p)) (scaled rc L) n) sys.
Proof.
  intros HP HL HF Hb Hrc Hmk Hth old lists Hold HB. pose proof (proj1 (mapO_Ok _ _ _) HB) as HK. pose proof (Forall2_length _ _ _ Hold) as EL.
  assert (HZ : forall r p, sys !! r = Some p -> exists o d, old !! r = Some o /\ lists !! r = Some d /\ can_build cap o p /\ build_on cap capA rev rc n C L mk o p = Ok d).
  { intros r p Hr. destruct (Forall2_lookup_r _ _ _ _ _ Hold Hr) as (o & Ho & Hc). assert (Hz : zip old sys !! r = Some (o, p)) by (rewrite lookup_zip_with, Ho, Hr; done). destruct (Forall2_lookup_l _ _ _ _ _ HK Hz) as (d & Hd & E). eauto 6. }
  assert (HQ : forall r p, sys !! r = Some p -> exists d l, lists !! r = Some d /\ built d l /\ listed_on rev C (scaled rc L) rc n mk p l /\ wide_enough (lower (xpDom p)) (upper (xpDom p)) (scaled rc L) n).
  { intros r p Hr. destruct (HZ r p Hr) as (o & d & Ho & Hd & [Hc1 Hc2] & E). exists d. unfold build_on in E. cbn zeta in E. fold (lower (xpDom p)) (upper (xpDom p)) (scaled rc L) in E.
    destruct (buildCellList _ _ _ _ _ _ _ _ _) as [cl| |] eqn:Ec; [|done..]. cbn [obind] in E.
    destruct (generic_once cap capA (lower (xpDom p)) (upper (xpDom p)) (scaled rc L) n (xpLocals p) (xpGhosts p) (fun h => xPos (xpMem p h)) (fun h => C (xPos (xpMem p h))) o.1 cl rev rc (fun x y => mk (xId (xpMem p x)) (xId (xpMem p y))) o.2) with (p' := d) as (l & Hv & HCl); try done.
    - by eapply box_pos.
    - by apply (holding_at dims s sys own HP HL HF cap r p).
    - by eapply (box_metric C L A sh n Hb rc (fun h => xPos (xpMem p h))).
    - intros a b _ _. apply Hmk.
    - destruct Hth as [Ht|Ht]; [by left|right]. exact (proj1 (Forall_forall _ _) Ht p (elem_of_list_lookup_2 _ _ _ Hr)).
    - exists l. split; [done|]. split; [by eapply build_built|]. split; [exact HCl|].
      pose proof (cell_list_build_defined cap (lower (xpDom p)) (upper (xpDom p)) (scaled rc L) n (xpLocals p) (xpGhosts p) (fun h => xPos (xpMem p h)) o.1 Hc1 (box_pos C L A sh n Hb rc Hrc) Hc2) as W. by rewrite Ec in W. }
  assert (HE : forall k, k <= length sys -> exists ls, length ls = k /\ forall r p, r < k -> sys !! r = Some p -> exists d l, lists !! r = Some d /\ ls !! r = Some l /\ built d l /\ listed_on rev C (scaled rc L) rc n mk p l).
  { induction k as [|k IH]; intros Hk; [exists []; split; [done|lia]|]. destruct (IH ltac:(lia)) as (ls & El & H). destruct (lookup_lt_is_Some_2 sys k) as [p Hp]; [lia|]. destruct (HQ k p Hp) as (d & l & H1 & H2 & H3 & _).
    exists (ls ++ [l]). split; [rewrite app_length; cbn; lia|]. intros r p' Hr Hp'. destruct (decide (r = k)) as [->|Hne].
    - assert (p' = p) as -> by congruence. exists d, l. split; [done|]. split; [|done]. rewrite lookup_app_r by lia. by rewrite El, Nat.sub_diag.
    - destruct (H r p' ltac:(lia) Hp') as (d' & l' & ? & ? & ?). exists d', l'. split; [done|]. split; [|done]. rewrite lookup_app_l by lia. done. }
  destruct (HE (length sys) ltac:(lia)) as (ls & El & H). exists ls. split; [|split].
  - apply Forall2_same_length_lookup_2; [done|]. intros r p l Hp Hl. destruct (H r p) as (d & l' & _ & ? & _ & ?); [by eapply lookup_lt_Some|done|]. congruence.
  - assert (ELl : length lists = length sys). { rewrite <- (Forall2_length _ _ _ HK), zip_with_length. lia. }
    apply Forall2_same_length_lookup_2; [congruence|]. intros r d l Hd Hl. destruct (lookup_lt_is_Some_2 sys r) as [p Hp]; [rewrite <- El; by eapply lookup_lt_Some|]. destruct (H r p) as (d' & l' & ? & ? & ? & _); [by eapply lookup_lt_Some|done|]. congruence.
  - apply Forall_forall. intros p Hp. apply elem_of_list_lookup in Hp as [r Hr]. destruct (HQ r p Hr) as (_ & _ & _ & _ & _ & W). exact W.
Qed.

(** States in which ghosts follow their owners. *)
Theorem dd_pair_sums_follow : forall dims s sys own C L A sh n rc rev mk cap capA old lists cut2 fo u c d sys2,
  in_place dims s sys -> linked sys own -> off_faces sys -> a_dd_box C L A sh n -> (0 < rc)%R -> (forall i, i < 3 -> vget s i = (rc / vget L i)%R) -> symmetric mk -> not_thin rev rc L sys ->
  Forall2 (can_build cap) old sys -> mapO (fun c => build_on cap capA rev rc n C L mk c.1 c.2) (zip old sys) = Ok lists ->
  interaction cut2 fo u c -> (0 <= d)%R -> (c + 2 * d <= rc)%R -> follows A own sys sys2 -> moved_little C d sys sys2 -> pair_sums A mk cut2 fo u rev lists sys2.
Proof.
  intros dims s sys own C L A sh n rc rev mk cap capA old lists cut2 fo u c d sys2 HP HL HF Hb Hrc Hs Hmk Hth Hold HBl (I1 & I2 & I3 & I4 & I5 & I6) Hd Hcd HFo HM.
  destruct (build_listed dims s sys own C L A sh n rc rev mk cap capA HP HL HF Hb Hrc Hmk Hth old lists Hold HBl) as (ls & HLs & HBt & HW).
  pose proof (box_spaced C L A sh n Hb) as HC. destruct (box_moves C L A sh n Hb) as [_ HA].
  assert (Hw : rev = true -> (0 < vx (scaled rc L) /\ 0 < vy (scaled rc L) /\ 0 < vz (scaled rc L))%R /\ Forall (fun p => wide_enough (lower (xpDom p)) (upper (xpDom p)) (scaled rc L) n) sys) by (intros _; split; [by eapply box_pos|done]).
  exists (now sys own A rev ls cut2 sys2). split; [|split; [|split; [|split]]].
  - by apply (now_every dims s sys own HP HL HF C L rc A HC Hs Hrc HA mk Hmk rev (scaled rc L) n ls HLs Hw cut2 sys2 c d).
  - by apply (total_energy dims s sys own HP HL C rc A mk rev (scaled rc L) n ls HLs cut2 u).
  - intros i j. by apply (total_stress dims s sys own HP HL C rc A mk rev (scaled rc L) n ls HLs).
  - intros q Hq Hq0. assert (Eq : q = (sqrt q * sqrt q)%R) by (by rewrite sqrt_sqrt). rewrite Eq. destruct (total_npair dims s sys own HP HL C rc A mk rev (scaled rc L) n ls HLs cut2 I1 lists HBt sys2 (sqrt q) HFo) as (N & E & ->); [intros a b; rewrite Hq; exact Eq|done].
  - by apply (total_forces dims s sys own HP HL C rc A mk rev (scaled rc L) n ls HLs).
Qed.

(** ** Just after the lists are built *)
Lemma mem_cart C sys a : a.1 < length sys -> mem_at (to_cart C sys) a = put_pos (mem_at sys a) (C (xPos (mem_at sys a))).
Proof. intros H. unfold mem_at, to_cart. rewrite list_lookup_fmap. destruct (lookup_lt_is_Some_2 _ _ H) as [p ->]. done. Qed.
Lemma cart_lists C sys : same_lists sys (to_cart C sys).
Proof. unfold same_lists, to_cart. apply Forall2_fmap_r. apply Forall2_same_length_lookup_2; [done|]. intros r p q Hp Hq. assert (q = p) as -> by congruence. done. Qed.
Lemma addr_lt sys a : a ∈ local_addrs sys \/ a ∈ ghost_addrs sys -> a.1 < length sys.
Proof. intros [(p & Hp & _)%elem_local|(p & Hp & _)%elem_ghost]; by eapply lookup_lt_Some. Qed.
Lemma cart_follows C A sys own : linked sys own -> (forall g k, C (translate g k) = lattice_move A (C g) k) -> follows A own sys (to_cart C sys).
Proof.
  intros HL HA. split; [apply cart_lists| |].
  - intros a Ha. rewrite mem_cart by (by apply addr_lt). done.
  - intros a Ha. destruct (li_own _ _ HL a Ha) as (Hl & _ & _ & E). rewrite !mem_cart by (apply addr_lt; auto). cbn [put_pos xPos]. by rewrite E, HA.
Qed.
Lemma cart_still C sys : moved_little C 0 sys (to_cart C sys).
Proof. intros a Ha. rewrite mem_cart by (apply addr_lt; auto). cbn [put_pos xPos]. unfold normSq, vdot, vsub. cbn [vx vy vz]. lra. Qed.

(** C76, C77: after an exchange and the building of all lists, at once. *)
Theorem dd_pair_sums_first : forall dims m s sys0 sys C L A sh n rc rev mk cap capA old lists cut2 fo u c,
  grid_system dims sys0 -> displaced dims m sys0 -> slabs dims m s -> NoDup (map (fun u => xId u.2) (held sys0)) -> exchange_all s sys0 = Ok sys -> off_faces sys ->
  a_dd_box C L A sh n -> (0 < rc)%R -> (forall i, i < 3 -> vget s i = (rc / vget L i)%R) -> symmetric mk -> not_thin rev rc L sys ->
  Forall2 (can_build cap) old sys -> mapO (fun c => build_on cap capA rev rc n C L mk c.1 c.2) (zip old sys) = Ok lists ->
  interaction cut2 fo u c -> (c <= rc)%R -> pair_sums A mk cut2 fo u rev lists (to_cart C sys).
Proof.
  intros dims m s sys0 sys C L A sh n rc rev mk cap capA old lists cut2 fo u c HG HD HS HN HE HF Hb Hrc Hs Hmk Hth Hold HB HI Hc.
  destruct (exchange_in_place dims m s sys0 sys HG HD HS HN HE) as (HP & own & HL).
  apply (dd_pair_sums_follow dims s sys own C L A sh n rc rev mk cap capA old lists cut2 fo u c 0); try done; try lra; [|apply cart_still]. apply cart_follows; [done|]. apply (box_moves C L A sh n Hb).
Qed.
(** C76, C77: later, after any motion of the local atoms by at most half the skin, and the update of the ghosts. *)
Theorem dd_pair_sums : forall dims m s sys0 sys C L A sh n rc rev mk cap capA old lists cut2 fo u c d s2 sys2,
  grid_system dims sys0 -> displaced dims m sys0 -> slabs dims m s -> NoDup (map (fun u => xId u.2) (held sys0)) -> exchange_all s sys0 = Ok sys -> off_faces sys ->
  a_dd_box C L A sh n -> (0 < rc)%R -> (forall i, i < 3 -> vget s i = (rc / vget L i)%R) -> symmetric mk -> not_thin rev rc L sys ->
  Forall2 (can_build cap) old sys -> mapO (fun c => build_on cap capA rev rc n C L mk c.1 c.2) (zip old sys) = Ok lists ->
  interaction cut2 fo u c -> (0 <= d)%R -> (c + 2 * d <= rc)%R ->
  same_lists sys s2 -> (forall a, a ∈ local_addrs sys \/ a ∈ ghost_addrs sys -> xId (mem_at s2 a) = xId (mem_at sys a) /\ xType (mem_at s2 a) = xType (mem_at sys a)) ->
  moved_little C d sys s2 -> update sh s2 = Ok sys2 -> pair_sums A mk cut2 fo u rev lists sys2.
Proof.
  intros dims m s sys0 sys C L A sh n rc rev mk cap capA old lists cut2 fo u c d s2 sys2 HG HD HS HN HE HF Hb Hrc Hs Hmk Hth Hold HB HI Hd Hcd Hsl Hk HM HU.
  destruct (exchange_in_place dims m s sys0 sys HG HD HS HN HE) as (HP & own & HL). destruct (box_moves C L A sh n Hb) as [Hsh HA].
  destruct (update_follows A sh own sys s2 HL Hsh Hsl Hk) as (s3 & E3 & HFo & HLo). rewrite HU in E3. injection E3 as <-.
  apply (dd_pair_sums_follow dims s sys own C L A sh n rc rev mk cap capA old lists cut2 fo u c d); try done. intros a Ha. rewrite (HLo a Ha). by apply HM.
Qed.
(** The same with bonded groups in the exchange. *)
Theorem dd_pair_sums_groups : forall dims m s G gs0 gs C L A sh n rc rev mk cap capA old lists cut2 fo u c d s2 sys2,
  group_system dims G gs0 -> displaced dims m (map gpX gs0) -> slabs dims m s -> gexchange s gs0 = Ok gs -> off_faces (map gpX gs) ->
  a_dd_box C L A sh n -> (0 < rc)%R -> (forall i, i < 3 -> vget s i = (rc / vget L i)%R) -> symmetric mk -> not_thin rev rc L (map gpX gs) ->
  Forall2 (can_build cap) old (map gpX gs) -> mapO (fun c => build_on cap capA rev rc n C L mk c.1 c.2) (zip old (map gpX gs)) = Ok lists ->
  interaction cut2 fo u c -> (0 <= d)%R -> (c + 2 * d <= rc)%R ->
  same_lists (map gpX gs) s2 -> (forall a, a ∈ local_addrs (map gpX gs) \/ a ∈ ghost_addrs (map gpX gs) -> xId (mem_at s2 a) = xId (mem_at (map gpX gs) a) /\ xType (mem_at s2 a) = xType (mem_at (map gpX gs) a)) ->
  moved_little C d (map gpX gs) s2 -> update sh s2 = Ok sys2 -> pair_sums A mk cut2 fo u rev lists sys2.
Proof.
  intros dims m s G gs0 gs C L A sh n rc rev mk cap capA old lists cut2 fo u c d s2 sys2 HG HD HS HE HF Hb Hrc Hs Hmk Hth Hold HB HI Hd Hcd Hsl Hk HM HU.
  destruct (gexchange_in_place dims m s G gs0 gs HG HD HS HE) as (HP & own & HL). destruct (box_moves C L A sh n Hb) as [Hsh HA].
  destruct (update_follows A sh own _ s2 HL Hsh Hsl Hk) as (s3 & E3 & HFo & HLo). rewrite HU in E3. injection E3 as <-.
  apply (dd_pair_sums_follow dims s (map gpX gs) own C L A sh n rc rev mk cap capA old lists cut2 fo u c d); try done. intros a Ha. rewrite (HLo a Ha). by apply HM.
Qed.

(** ** When hypotheses hold *)
(** Lists are built if domains are wide enough, and there are not too many atoms, and room for pairs. *)
Theorem dd_lists_build : forall dims s sys own C L A sh n rc rev mk cap capA old,
  in_place dims s sys -> linked sys own -> off_faces sys -> a_dd_box C L A sh n -> (0 < rc)%R -> symmetric mk -> not_thin rev rc L sys -> Forall2 (can_build cap) old sys -> 0 < capA ->
  Forall (fun p => wide_enough (lower (xpDom p)) (upper (xpDom p)) (scaled rc L) n) sys -> Forall (fun p => length (xpLocals p) + length (xpGhosts p) <= 2000) sys -> Forall (fun o => 0 < vCap2 o.2) old ->
  exists lists, mapO (fun c => build_on cap capA rev rc n C L mk c.1 c.2) (zip old sys) = Ok lists.
Proof.
  intros dims s sys own C L A sh n rc rev mk cap capA old HP HL HF Hb Hrc Hmk Hth Hold HcA HW HM HV. apply mapO_total. intros r [o p] Hz. rewrite lookup_zip_with in Hz.
  destruct (old !! r) as [o'|] eqn:Ho; [|done]. cbn in Hz. destruct (sys !! r) as [p'|] eqn:Hr; [|done]. cbn in Hz. injection Hz as -> ->. cbn [fst snd].
  destruct (Forall2_lookup_l _ _ _ _ _ Hold Ho) as (p' & Hr' & [Hc1 Hc2]). assert (p' = p) as -> by congruence. pose proof (elem_of_list_lookup_2 _ _ _ Hr) as Hin. pose proof (elem_of_list_lookup_2 _ _ _ Ho) as Hino.
  pose proof (proj1 (Forall_forall _ _) HW p Hin) as W. pose proof (proj1 (Forall_forall _ _) HM p Hin) as M1. pose proof (proj1 (Forall_forall _ _) HV o Hino) as V1. cbn beta in W, M1, V1.
  unfold build_on. cbn zeta. fold (lower (xpDom p)) (upper (xpDom p)) (scaled rc L).
  pose proof (cell_list_build_defined cap (lower (xpDom p)) (upper (xpDom p)) (scaled rc L) n (xpLocals p) (xpGhosts p) (fun h => xPos (xpMem p h)) o.1 Hc1 (box_pos C L A sh n Hb rc Hrc) Hc2) as D.
  destruct (buildCellList _ _ _ _ _ _ _ _ _) as [cl| |] eqn:Ec; [|by apply D in W|done]. cbn [obind].
  apply (generic_ok cap capA (lower (xpDom p)) (upper (xpDom p)) (scaled rc L) n (xpLocals p) (xpGhosts p) (fun h => xPos (xpMem p h)) (fun h => C (xPos (xpMem p h))) o.1 cl rev rc (fun x y => mk (xId (xpMem p x)) (xId (xpMem p y))) o.2); try done.
  - by eapply box_pos.
  - by apply (holding_at dims s sys own HP HL HF cap r p).
  - destruct Hth as [Ht|Ht]; [by left|right]. exact (proj1 (Forall_forall _ _) Ht p Hin).
  - by left.
Qed.
(** No processor has more than 27 times the number of all atoms. *)
Theorem exchange_sizes : forall dims s sys sys', grid_system dims sys -> exchange_all s sys = Ok sys' -> Forall (fun p => length (xpLocals p) + length (xpGhosts p) <= 27 * length (held sys)) sys'.
Proof.
  intros dims s sys sys' HG H. destruct (all_split dims s sys sys' HG H) as (s1 & H1 & H2 & HI & G & HT & EH & ED). apply Forall_forall. intros p Hp. apply elem_of_list_lookup in Hp as [r Hr]. rewrite <- len_LG.
  assert (Hn : r < n_proc dims) by (rewrite <- (ginv_len _ _ G); by eapply lookup_lt_Some). pose proof (TF_len dims (atr LG sys') r Hn) as HLr. rewrite (atr_Some _ _ _ _ Hr) in HLr. rewrite (Permutation_length HT) in HLr.
  destruct (exchange_atoms_pairs dims s sys HG s1 H1) as (l & HPl & HFl). assert (E : length (held s1) = length (held sys)) by (rewrite <- HPl; symmetry; exact (Forall2_length _ _ _ HFl)). rewrite <- E.
  assert (HK : forall k, length (flat_map (copies dims) k) <= 27 * length k).
  { induction k as [|x k IH]; cbn [flat_map length]; [lia|]. rewrite app_length. assert (length (copies dims x) <= 27); [|lia]. unfold copies.
    pose proof (cop_len dims 2 (flat_map (cop dims 1) (cop dims 0 x))). pose proof (cop_len dims 1 (cop dims 0 x)). pose proof (cop_len dims 0 [x]) as K0. cbn [flat_map length] in K0. rewrite app_nil_r in K0. lia. }
  specialize (HK (map (fun u => (u.1, ng u.2)) (held s1))). rewrite map_length in HK. lia.
Qed.
(** Atoms off all faces stay off them. *)
Theorem exchange_off_faces : forall dims m s sys sys', grid_system dims sys -> displaced dims m sys -> slabs dims m s -> NoDup (map (fun u => xId u.2) (held sys)) -> exchange_all s sys = Ok sys' ->
  (forall w i z, w ∈ held sys -> i < 3 -> (vget (xPos w.2) i * IZR (vget dims i))%R <> IZR z) -> off_faces sys'.
Proof.
  intros dims m s sys sys' HG HD HS HN H Hoff. destruct (exchange_in_place dims m s sys sys' HG HD HS HN H) as (HP & _). destruct (all_split dims s sys sys' HG H) as (s1 & H1 & H2 & HI & G & HT & EH & ED).
  apply Forall_forall. intros p Hp. pose proof (proj1 (Forall_forall _ _) (se_closed _ _ _ HP) p Hp) as HCl. apply elem_of_list_lookup in Hp as [r Hr]. apply Forall_forall. intros a Ha. pose proof (proj1 (Forall_forall _ _) HCl a Ha) as Hcl. cbn beta in Hcl.
  pose proof (held_local _ _ _ _ Hr Ha) as Hh. rewrite EH in Hh. destruct (exchange_atoms_pairs dims s sys HG s1 H1) as (l & HPl & HFl). rewrite <- HPl in Hh. apply elem_of_list_lookup in Hh as [x Hx].
  destruct (Forall2_lookup_r _ _ _ _ _ HFl Hx) as (w & Hw & E). apply elem_of_list_lookup_2 in Hw. destruct (held_elem dims sys HG w Hw) as (pp & Hpp & _). destruct (M_st dims s sys HG w (xpDom pp) Hw pp Hpp eq_refl) as (_ & _ & (_ & _ & _ & k & M3) & _). rewrite E in M3. cbn [snd nf xPos] in M3.
  assert (HB : forall i, i < 3 -> (domainBound (xpDom p) i 0 <= vget (xPos a) i < domainBound (xpDom p) i 1)%R).
  { intros i Hi. destruct (Hcl i Hi) as [B0 B1]. split; [done|]. destruct (Rle_lt_or_eq_dec _ _ B1) as [|Eq]; [done|]. exfalso. destruct (widths dims s sys' HP r p Hr i Hi) as [_ W]. rewrite W in Eq.
    pose proof (vget3_pos _ i (se_grid _ _ _ HP)) as Hpos. apply IZR_lt in Hpos.
    apply (Hoff w i (vget (coords dims r) i + 1 - vget k i * vget dims i)%Z Hw Hi). rewrite minus_IZR, plus_IZR, mult_IZR. assert (ET : vget (xPos a) i = (vget (xPos w.2) i + IZR (vget k i))%R) by (rewrite M3; destruct i as [|[|[|]]]; [done|done|done|lia]).
    rewrite ET in Eq. apply (f_equal (fun v => v * IZR (vget dims i))%R) in Eq. unfold Rdiv in Eq. rewrite Rmult_assoc, Rinv_l in Eq by lra. lra. }
  destruct (HB 0 ltac:(lia)), (HB 1 ltac:(lia)), (HB 2 ltac:(lia)). done.
Qed.

(** ** Consequences *)
Lemma every_pair_flip A mk cut2 sys2 P t : symmetric mk -> symmetric cut2 -> every_pair A mk cut2 sys2 P -> t ∈ P -> flip t ∈ P.
Proof.
  intros Hm Hc [_ H]. rewrite !H. intros (H1 & H2 & H3 & H4 & H5). destruct t as [[a b] k]. unfold interacting, flip, separation in *. cbn [fst snd] in *. split; [done|]. split; [done|]. split.
  - destruct H3 as [H3|H3]; [left; congruence|right]. intros E. apply H3. rewrite <- (negz_negz k), E. done.
  - rewrite Hm, Hc. split; [done|]. by rewrite <- lattice_norm.
Qed.
(** C77: the forces add up to zero: linear momentum is conserved. *)
Theorem dd_pair_momentum : forall A mk cut2 fo u rev lists sys2 s3 c, symmetric mk -> symmetric cut2 -> symmetric3 fo -> NoDup (local_addrs sys2) ->
  pair_sums A mk cut2 fo u rev lists sys2 -> computePairForces cut2 fo rev lists sys2 = Ok s3 -> c < 3 -> total_force s3 (local_addrs sys2) c = 0%R.
Proof.
  intros A mk cut2 fo u rev lists sys2 s3 c Hm Hc2 Hfo HN (P & HP & _ & _ & _ & s4 & E4 & _ & _ & HF) E Hc. assert (s4 = s3) as -> by congruence. unfold total_force.
  rewrite (sum_ext _ (fun a => sum_over P (fun t : triple => if decide (t.1.1 = a) then vget (pair_f fo A sys2 t) c else 0%R))) by (intros a Ha; by apply HF). rewrite sum_swap.
  rewrite (sum_ext _ (fun t => vget (pair_f fo A sys2 t) c)).
  2:{ intros t Ht. rewrite (sum_one _ _ t.1.1); [by rewrite decide_True|done|by apply HP in Ht as (? & _)|]. intros a _ Hne. by rewrite decide_False. }
  assert (HFl : map flip P ≡ₚ P).
  { apply NoDup_Permutation; [|apply HP|].
    - apply (NoDup_fmap_2_strong flip); [|apply HP]. intros t t' _ _ E'. rewrite <- (flip_flip t), E'. apply flip_flip.
    - intros t. split.
      + intros Ht. apply elem_of_map in Ht as (t' & -> & Ht). by eapply every_pair_flip.
      + intros Ht. apply elem_of_map. exists (flip t). split; [symmetry; apply flip_flip|]. by eapply every_pair_flip. }
  assert (HS : sum_over P (fun t => vget (pair_f fo A sys2 t) c) = (- sum_over P (fun t => vget (pair_f fo A sys2 t) c))%R).
  { rewrite <- (sum_perm _ _ _ HFl) at 1. rewrite sum_map. rewrite (sum_ext _ (fun t => (-1) * vget (pair_f fo A sys2 t) c)%R) by (intros t _; rewrite (f_flip A fo Hfo sys2), neg3_comp by done; lra). rewrite sum_scale. lra. }
  lra.
Qed.
(** Both kinds of communication give the same: every result is a sum over the same pairs. *)
Theorem dd_pair_same : forall A mk cut2 fo u rev rev' lists lists' sys2, pair_sums A mk cut2 fo u rev lists sys2 -> pair_sums A mk cut2 fo u rev' lists' sys2 ->
  reduce Rplus 0%R (energyList u rev) lists sys2 = reduce Rplus 0%R (energyList u rev') lists' sys2 /\
  (forall i j, reduce Rplus 0%R (stressList cut2 fo i j rev) lists sys2 = reduce Rplus 0%R (stressList cut2 fo i j rev') lists' sys2) /\
  exists s3 s3', computePairForces cut2 fo rev lists sys2 = Ok s3 /\ computePairForces cut2 fo rev' lists' sys2 = Ok s3' /\
    forall a c, a ∈ local_addrs sys2 -> c < 3 -> vget (xForce (mem_at s3 a)) c = vget (xForce (mem_at s3' a)) c.
Proof.
  intros A mk cut2 fo u rev rev' lists lists' sys2 (P & [N1 M1] & E1 & E2 & _ & s3 & E3 & _ & _ & F3) (P' & [N2 M2] & E1' & E2' & _ & s3' & E3' & _ & _ & F3').
  assert (HP : P ≡ₚ P') by (apply NoDup_Permutation; [done|done|]; intros t; by rewrite M1, M2). split; [by rewrite E1, E1', (sum_perm _ _ _ HP)|]. split; [intros i j; by rewrite E2, E2', (sum_perm _ _ _ HP)|].
  exists s3, s3'. split; [done|]. split; [done|]. intros a c Ha Hc. rewrite F3, F3' by done. by rewrite (sum_perm _ _ _ HP).
Qed.
Print Assumptions dd_pair_sums.
Print Assumptions dd_pair_sums_groups.
Print Assumptions dd_pair_momentum.
