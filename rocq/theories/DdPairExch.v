(** The state after an exchange is as the pair potential needs it. *)
From Verif Require Import Base Containers Vec3 PlanModel OrthoModel BoxSpec OrthoSpec OrthoProofs MonoModel MonoSpec MonoProofs DomainModel DomainSpec DomainProofs DomainProps SpeciesModel SpeciesProofs SimProofs DistSpec EnergySpec EnergyProofs ExchModel ExchSpec ExchUpdSpec ExchProofs ExchAtoms ExchElem ExchStart ExchGhost ExchCopies ExchFinal ExchProps ExchLinks ExchUpdate ExchUpdProps GExchModel GExchSpec GExchProofs GExchAtoms GExchOrigin GExchGhosts GExchReach GExchTotal GExchProps DdPairSpec.
From Coq Require Import Reals Lra.
Local Open Scope nat_scope.

Lemma linked_links dims sys : grid_ok dims -> links dims dirs [] sys -> exists own, linked sys own.
Proof.
  intros Hd HL. destruct (links_follow dims sys Hd HL) as (own & H1 & H2 & H3). exists own. split; [done|done|].
  intros s2 Hs. destruct (H3 s2 Hs) as (s3 & ? & ? & ? & ? & _). exists s3. done.
Qed.
Lemma held_local sys q p a : sys !! q = Some p -> a ∈ locals p -> (q, a) ∈ held sys.
Proof. intros Hq Ha. unfold held. apply elem_of_flat_map. exists q. split; [apply elem_of_seq; apply lookup_lt_Some in Hq; lia|]. rewrite Hq. apply elem_of_map. eauto. Qed.

(** Exchange without groups. *)
Theorem exchange_in_place dims m s sys sys' : grid_system dims sys -> displaced dims m sys -> slabs dims m s -> NoDup (map (fun u => xId u.2) (held sys)) ->
  exchange_all s sys = Ok sys' -> in_place dims s sys' /\ exists own, linked sys' own.
Proof.
  intros HG HD HS HN H. pose proof (gs_grid _ _ HG) as Hd. destruct (all_split dims s sys sys' HG H) as (s1 & H1 & H2 & HI & G & HT & EH & ED). split.
  - split; [done|apply G| | | | |].
    + eapply Forall_impl; [apply (gi_live _ _ G)|]. intros p LV. exact (lv_nodup _ LV).
    + apply Forall_forall. intros p Hp. apply elem_of_list_lookup in Hp as [q Hq]. apply Forall_forall. intros a Ha. pose proof (held_local _ _ _ _ Hq Ha) as Hh. rewrite EH in Hh.
      destruct (settled_atom dims Hd m s sys s1 HG HD H1 _ Hh) as (_ & _ & _ & _ & HC & _). apply (closed_yy dims Hd q); [|exact HC]. destruct (gi_dom _ _ G) as [_ HDo]. apply HDo. by rewrite list_lookup_fmap, Hq.
    + rewrite EH. destruct (exchange_atoms_pairs dims s sys HG s1 H1) as (l & HP & HF). rewrite <- HP. replace (map _ l) with (map (fun u : nat * xatom => xId u.2) (held sys)); [done|].
      apply list_eq. intros x. rewrite !list_lookup_fmap. destruct (held sys !! x) as [u|] eqn:Hu.
      * destruct (Forall2_lookup_l _ _ _ _ _ HF Hu) as (v & Hv & E). rewrite Hv. cbn. f_equal. apply elem_of_list_lookup_2 in Hu.
        destruct (held_elem dims sys HG u Hu) as (pp & Hp & _). destruct (M_st dims s sys HG u (xpDom pp) Hu pp Hp eq_refl) as (_ & _ & (M3 & _) & _). rewrite E in M3. symmetry. exact M3.
      * assert (E : l !! x = None). { apply lookup_ge_None. rewrite <- (Forall2_length _ _ _ HF). by apply lookup_ge_None. } by rewrite E.
    + intros q p Hq u k Hu HNr. destruct (proj2 (ghosts_complete dims m s sys sys' HG HD H q p HS Hq (xId u.2) (xType u.2) (translate (xPos u.2) k))) as (b & Hb & E1 & E2 & E3); [by exists u, k|]. by exists b.
    + apply Forall_forall. intros p Hp. apply elem_of_list_lookup in Hp as [q Hq]. by eapply ghosts_once.
  - apply (linked_links dims); [done|]. apply (links_ready dims Hd s1 sys'); [by apply inv_ready|done].
Qed.
(** Exchange with groups. *)
Theorem gexchange_in_place dims m s G sys sys' : group_system dims G sys -> displaced dims m (map gpX sys) -> slabs dims m s ->
  gexchange s sys = Ok sys' -> in_place dims s (map gpX sys') /\ exists own, linked (map gpX sys') own.
Proof.
  intros HG HD HS H. pose proof (gs_grid _ _ (gy_grid _ _ _ HG)) as Hd. pose proof H as H0. unfold gexchange in H0. destruct (gexchangeAtoms s sys) as [sys1| |] eqn:H1; try discriminate. cbn [obind] in H0.
  destruct (find_result dims s G sys sys1 HG H1 sys' H0) as [HE _]. destruct (gexchange_atoms_raw dims G s sys HG sys1 H1) as (mid & xs & _ & E1 & HX & Exs & HM & HR & HRm & HI & HRd & _).
  destruct (exchange_ghosts_ready dims Hd _ _ HRd HE) as (GI & HT & ED & _ & EH & EP). split.
  - split; [done|apply GI| | | | |].
    + eapply Forall_impl; [apply (gi_live _ _ GI)|]. intros p LV. exact (lv_nodup _ LV).
    + apply Forall_forall. intros p Hp. apply elem_of_list_lookup in Hp as [q Hq]. apply Forall_forall. intros a Ha. pose proof (held_local _ _ _ _ Hq Ha) as Hh. rewrite EH in Hh.
      destruct (fin_of dims m s G sys sys1 HG HD H1 _ Hh) as [u0 Fu]. apply (closed_yy dims Hd q); [|exact (fin_in dims m s G sys HG HD u0 _ Fu)]. destruct (gi_dom _ _ GI) as [_ HDo]. apply HDo. by rewrite list_lookup_fmap, Hq.
    + rewrite EH. exact (held1_nodup dims s G sys sys1 HG H1).
    + intros q p Hq. rewrite list_lookup_fmap in Hq. destruct (sys' !! q) as [g|] eqn:Eg; [|done]. injection Hq as <-. by eapply group_images.
    + apply Forall_forall. intros p Hp. apply elem_of_list_lookup in Hp as [q Hq]. rewrite list_lookup_fmap in Hq. destruct (sys' !! q) as [g|] eqn:Eg; [|done]. injection Hq as <-. by eapply group_images_once.
  - apply (linked_links dims); [done|]. by apply (links_ready dims Hd (map gpX sys1) (map gpX sys')).
Qed.
(** The update makes ghosts follow. *)
Theorem update_follows A sh own sys s2 : linked sys own -> lattice_shift A sh -> same_lists sys s2 ->
  (forall a, a ∈ local_addrs sys \/ a ∈ ghost_addrs sys -> xId (mem_at s2 a) = xId (mem_at sys a) /\ xType (mem_at s2 a) = xType (mem_at sys a)) ->
  exists s3, update sh s2 = Ok s3 /\ follows A own sys s3 /\ forall a, a ∈ local_addrs sys -> mem_at s3 a = mem_at s2 a.
Proof.
  intros HL HA Hs Hi. destruct (li_update _ _ HL A sh s2 HA Hs) as (s3 & E & Hs3 & HGh & HLo). exists s3. split; [done|]. split; [|done]. split; [done| |].
  - intros a [Ha|Ha].
    + rewrite HLo by done. apply Hi. by left.
    + rewrite HGh by done. apply (Hi a). by right.
  - intros a Ha. rewrite HGh by done. cbn [put_pos xPos]. rewrite HLo; [done|]. apply (li_own _ _ HL a Ha).
Qed.
