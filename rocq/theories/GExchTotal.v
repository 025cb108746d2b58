(** Proofs about the exchange of groups: when it completes. *)
From Verif Require Import Base Containers Vec3 PlanModel PlanSpec PlanProofs DomainModel DomainSpec DomainProofs DomainProps SpeciesModel SpeciesProofs SimProofs DistSpec ExchModel ExchSpec ExchProofs ExchAtoms ExchElem ExchStart ExchGhost ExchCopies ExchFinal GExchModel GExchSpec GExchProofs GExchAtoms.
From Coq Require Import Reals Lra.
Local Open Scope nat_scope.

Lemma of_kind_le G gs k : NoDup (map bkey G) -> NoDup (keys gs) -> (forall g, g ∈ gs -> bond_of g ∈ G) ->
  length (List.filter (fun h => Nat.eqb (gKind h) k) gs) <= of_kind k G.
Proof.
  intros HK HN HG. unfold of_kind. rewrite <- (map_length bond_of). apply submseteq_length. apply NoDup_submseteq.
  - apply (NoDup_fmap_1 bkey). rewrite <- list_fmap_compose. apply (keys_filter _ _ HN).
  - intros b Hb. apply elem_of_map in Hb as (g & -> & Hg). apply elem_of_filter_b in Hg as [Hg E]. apply elem_of_filter_b. split; [by apply HG|done].
Qed.
Lemma gtake_ok G p cap gs g : NoDup (map bkey G) -> NoDup (keys gs) -> (forall g, g ∈ gs -> bond_of g ∈ G) -> bond_of g ∈ G -> of_kind (gKind g) G < cap (gKind g) ->
  exists gs', gtake p cap gs g = Ok gs' /\ NoDup (keys gs') /\ (forall g, g ∈ gs' -> bond_of g ∈ G).
Proof.
  intros HK HN HG Hg Hc. unfold gtake. pose proof (of_kind_le G gs (gKind g) HK HN HG). rewrite decide_True by lia. destruct (existsb (same_key g) gs) eqn:E.
  - eexists. split; [done|]. split.
    + unfold keys. rewrite map_map. rewrite (map_ext _ (fun g => bkey (bond_of g))); [done|]. intros h. by destruct (same_key g h).
    + intros h Hh. apply elem_of_map in Hh as (h0 & -> & Hh0). specialize (HG h0 Hh0). by destruct (same_key g h0).
  - eexists. split; [done|]. split.
    + unfold keys. rewrite map_app. apply NoDup_app. split; [done|]. split; [|cbn [map]; apply NoDup_singleton]. intros x Hx X. cbn [map] in X. apply elem_of_list_singleton in X. subst x. apply elem_of_map in Hx as (h & Eh & Hh).
      assert (X : existsb (same_key g) gs = true); [|congruence]. apply existsb_exists. exists h. split; [by apply elem_of_list_In|]. apply same_key_iff. exact Eh.
    + intros h Hh. apply elem_of_app in Hh as [Hh|Hh]; [by apply HG|]. apply elem_of_list_singleton in Hh. by subst h.
Qed.
Lemma gunpack_ok G p cap : NoDup (map bkey G) -> (forall k, of_kind k G < cap k) -> forall msg gs, NoDup (keys gs) -> (forall g, g ∈ gs -> bond_of g ∈ G) -> (forall g, g ∈ msg -> bond_of g ∈ G) ->
  exists gs', gunpack p cap gs msg = Ok gs'.
Proof.
  intros HK Hc. induction msg as [|g msg IH]; intros gs HN HG HM; unfold gunpack; cbn [foldM]; [eauto|].
  destruct (gtake_ok G p cap gs g HK HN HG (HM g ltac:(by left)) (Hc _)) as (gs1 & E & N1 & G1). rewrite E. cbn [obind]. apply (IH gs1 N1 G1). intros h Hh. apply HM. by right.
Qed.

Section total.
  Context (dims : vec3 Z) (Hd : grid_ok dims) (G : list bond) (HK : NoDup (map bkey G)).
  Lemma ground_ok i j ds sys xs : after i j ds -> inv dims ((i, j) :: ds) (map gpX sys) -> (forall r q, sys !! r = Some q -> rgt G q) -> Forall (fun q => forall k, of_kind k G < gpCap q k) sys ->
    xround i j (map gpX sys) = Ok xs -> exists sys', ground i j sys = Ok sys'.
  Proof.
    intros HA HI HR HC HX. destruct (after_cases _ _ _ HA) as (Hi & Hj & _). unfold ground. rewrite HX. cbn [obind]. destruct (xround_step dims Hd i j ds _ _ HA HI HX) as [HL HS]. rewrite map_length in HL.
    apply mapO_total. intros r [p q] Hz. apply lookup_zip_with_Some in Hz as (p' & q' & E & Hp & Hq). injection E as <- <-. cbn [fst snd].
    destruct (xflag (xpDom p) i) eqn:EF; [|eauto]. assert (Hx : map gpX sys !! r = Some (gpX q)) by (by rewrite list_lookup_fmap, Hq).
    destruct (HS r _ Hx) as (p' & Hp' & XS). assert (p' = p) as -> by congruence. pose proof (dom_at dims _ r _ (iv_dom _ _ _ HI) Hx) as HDp. rewrite <- (xs_dom _ _ _ _ _ _ _ XS) in HDp.
    destruct (dom_tables _ Hd _ _ HDp) as (_ & _ & HT). destruct (HT i j Hi Hj) as (E1 & _). rewrite E1.
    assert (Hrn : r < n_proc dims) by (rewrite <- (inv_len _ _ _ HI); by eapply lookup_lt_Some). pose proof (src_lt dims Hd i j r Hi Hrn) as Hs. rewrite <- (inv_len _ _ _ HI), map_length in Hs.
    destruct (lookup_lt_is_Some_2 sys _ Hs) as [qs Hqs]. unfold aget. rewrite !list_lookup_fmap, Hqs. cbn [fmap option_fmap option_map obind].
    pose proof (gpack_left i j G q (HR r q Hq)) as R1. destruct (gpack_msg i j G qs (HR _ qs Hqs)) as (_ & M2 & _).
    destruct (gunpack_ok G p (gpCap q) HK (proj1 (Forall_forall _ _) HC q (elem_of_list_lookup_2 _ _ _ Hq)) (gpack i j qs).2 (gpack i j q).1) as [gs' E].
    - apply R1.
    - intros g Hg. by apply (rt_in _ _ _ _ R1), elem_bond.
    - intros g Hg. by apply M2, elem_bond.
    - rewrite E. cbn [obind]. eauto.
  Qed.
  Lemma grounds_ok ds : forall pre sys xs, dirs = pre ++ ds -> inv dims ds (map gpX sys) -> (forall r q, sys !! r = Some q -> rgt G q) -> Forall (fun q => forall k, of_kind k G < gpCap q k) sys ->
    foldM (fun sys ij => xround ij.1 ij.2 sys) (map gpX sys) ds = Ok xs -> exists sys', foldM (fun sys ij => ground ij.1 ij.2 sys) sys ds = Ok sys'.
  Proof.
    induction ds as [|[i j] ds IH]; intros pre sys xs E HI HR HC HX; cbn [foldM fst snd] in *; [eauto|].
    destruct (xround i j (map gpX sys)) as [x1| |] eqn:EX; cbn [obind] in HX; try discriminate. assert (HA : after i j ds) by (by exists pre).
    destruct (ground_ok i j ds sys x1 HA HI HR HC EX) as [s1 E1]. rewrite E1. cbn [obind]. destruct (ground_step dims Hd i j ds sys s1 HA HI E1) as (HX1 & HL1 & HS1). assert (x1 = map gpX s1) as -> by congruence.
    assert (HB : forall r q', s1 !! r = Some q' -> exists q, sys !! r = Some q /\ gstep dims i j sys r q q').
    { intros r q' Hq'. destruct (lookup_lt_is_Some_2 sys r) as [q Hq]; [rewrite <- HL1; by eapply lookup_lt_Some|]. destruct (HS1 r q Hq) as (q2 & Hq2 & X). exists q. split; [done|]. assert (q2 = q') as <- by congruence. done. }
    destruct (round_inv dims Hd i j ds _ _ HA HI EX) as (I1 & _).
    apply (IH (pre ++ [(i, j)]) s1 xs); [by rewrite <- app_assoc|done| | |done].
    - intros r q' Hq'. destruct (HB r q' Hq') as (q & Hq & X). by apply (gstep_right dims G HK i j sys r q q').
    - apply Forall_forall. intros q' Hq'. apply elem_of_list_lookup in Hq' as [r Hr]. destruct (HB r q' Hr) as (q & Hq & X). rewrite (gs_cap _ _ _ _ _ _ _ X). exact (proj1 (Forall_forall _ _) HC q (elem_of_list_lookup_2 _ _ _ Hq)).
  Qed.
End total.

Lemma gexchange_atoms_ok dims G s sys xs : group_system dims G sys -> Forall (fun q => forall k, of_kind k G < gpCap q k) sys ->
  exchangeAtoms s (map gpX sys) = Ok xs -> exists sys', gexchangeAtoms s sys = Ok sys'.
Proof.
  intros HG HC HX. pose proof (gs_grid _ _ (gy_grid _ _ _ HG)) as Hd. unfold exchangeAtoms in HX.
  destruct (grounds_ok dims Hd G (gy_keys _ _ _ HG) dirs [] (map (gstart s) sys) xs eq_refl (starts_inv dims G s sys HG) (starts_right dims G s sys HG)) as [mid E].
  - apply Forall_forall. intros q Hq. apply elem_of_map in Hq as (q0 & -> & Hq0). exact (proj1 (Forall_forall _ _) HC q0 Hq0).
  - rewrite <- HX. f_equal. rewrite !map_map. done.
  - unfold gexchangeAtoms. rewrite E. cbn [obind]. eauto.
Qed.
