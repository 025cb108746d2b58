(** Theorems about the exchange of groups (C73-C75). *)
From Verif Require Import Base Containers Vec3 PlanModel PlanSpec PlanProofs DomainModel DomainSpec DomainProofs DomainProps SpeciesModel SpeciesProofs SimProofs DistSpec ExchModel ExchSpec ExchProofs ExchAtoms ExchElem ExchStart ExchGhost ExchCopies ExchFinal ExchProps GExchModel GExchSpec GExchProofs GExchAtoms GExchOrigin GExchGhosts GExchReach GExchTotal.
From Coq Require Import Reals Lra.
Local Open Scope nat_scope.

(** ** C73: groups go with their atoms *)
(** After exchangeAtoms every processor has one record of every group with an atom among its local atoms, with pointers to exactly these atoms; the atoms are those that the
    exchange without groups gives, but for more ghost flags. *)
Theorem groups_exchanged dims G s sys sys1 : group_system dims G sys -> gexchangeAtoms s sys = Ok sys1 ->
  Forall (groups_local G) sys1 /\ exists xs, exchangeAtoms s (map gpX sys) = Ok xs /\ Forall2 marked xs (map gpX sys1).
Proof.
  intros HG H. destruct (gexchange_atoms_raw dims G s sys HG sys1 H) as (mid & xs & HF & E1 & HX & Exs & HM & HR & HRm & HI & HRd & _). split.
  - apply Forall_forall. intros q Hq. apply elem_of_list_lookup in Hq as [r Hr]. apply right_groups. by apply (HR r).
  - exists xs. split; [done|]. eapply Forall2_impl; [exact HM|]. intros p q. apply mk_marked.
Qed.
(** After the whole exchange the records are complete: every pointer points to an atom or ghost with the right id.  So the state is again one in which exchange may be called. *)
Theorem groups_kept dims G s sys sys2 : group_system dims G sys -> gexchange s sys = Ok sys2 -> group_system dims G sys2 /\ Forall points_all sys2.
Proof.
  intros HG H. pose proof (gs_grid _ _ (gy_grid _ _ _ HG)) as Hd. unfold gexchange in H. destruct (gexchangeAtoms s sys) as [sys1| |] eqn:H1; try discriminate. cbn [obind] in H.
  destruct (find_result dims s G sys sys1 HG H1 sys2 H) as [HE HF]. destruct (gexchange_atoms_raw dims G s sys HG sys1 H1) as (mid & xs & _ & E1 & HX & Exs & HM & HR & HRm & HI & HRd & _).
  destruct (exchange_ghosts_ready dims Hd _ _ HRd HE) as (GI & HT & ED & _ & EH & EP). split; [split|].
  - split; [done|apply GI|]. eapply Forall_impl; [apply (gi_live _ _ GI)|]. intros p LV. split.
    + pose proof (lv_nodup _ LV) as ND. by apply NoDup_app in ND as [ND _].
    + pose proof (lv_bound _ LV) as LB. by apply Forall_app in LB as [LB _].
  - rewrite EH. exact (held1_nodup dims s G sys sys1 HG H1).
  - apply HG.
  - eapply Forall_impl; [exact HF|]. cbn. tauto.
  - eapply Forall_impl; [exact HF|]. cbn. tauto.
Qed.

(** ** C74: completion *)
Definition room (G : list bond) (sys : list gproc) : Prop :=
  Forall (fun q => length (held (map gpX sys)) <= xpCap (gpX q) /\ 27 * length (held (map gpX sys)) <= xpGCap (gpX q) /\ forall k, of_kind k G < gpCap q k) sys.
Lemma exchanged_with_room dims G s sys : group_system dims G sys -> room G sys ->
  exists sys1 ps, gexchangeAtoms s sys = Ok sys1 /\ exchangeGhosts (map gpX sys1) = Ok ps.
Proof.
  intros HG HC. pose proof (gs_grid _ _ (gy_grid _ _ _ HG)) as Hd. destruct (exchange_atoms_completes dims s (map gpX sys) (gy_grid _ _ _ HG) (gy_ids _ _ _ HG)) as [xs HX].
  { apply Forall_forall. intros p Hp. apply elem_of_map in Hp as (q & -> & Hq). apply (proj1 (Forall_forall _ _) HC q Hq). }
  destruct (gexchange_atoms_ok dims G s sys xs HG) as [sys1 H1]; [|done|].
  { eapply Forall_impl; [exact HC|]. cbn. tauto. }
  exists sys1. destruct (gexchange_atoms_raw dims G s sys HG sys1 H1) as (mid & xs' & _ & E1 & HX' & Exs & HM & HR & HRm & HI & HRd & _). assert (xs' = xs) as -> by congruence.
  destruct (exchange_ghosts_ready_ok dims Hd _ HRd) as [ps Hps]; [|eauto].
  assert (EL : length (held (map gpX sys1)) = length (held (map gpX sys))). { pose proof (Permutation_length (held1_perm dims s G sys sys1 HG H1)) as X. by rewrite !map_length in X. }
  rewrite EL. destruct (exchange_atoms_raw dims s _ (gy_grid _ _ _ HG) xs HX) as (_ & _ & _ & _ & EG).
  assert (EC : map xpGCap (map gpX sys1) = map xpGCap (map gpX sys)).
  { rewrite <- EG. apply list_eq. intros r. rewrite (list_lookup_fmap _ (map gpX sys1)), (list_lookup_fmap _ xs). destruct (map gpX sys1 !! r) as [p|] eqn:Ep.
    - destruct (Forall2_lookup_r _ _ _ _ _ HM Ep) as (p0 & -> & [_ (_ & X & _) _]). cbn. by rewrite X.
    - rewrite (proj2 (lookup_ge_None xs r)); [done|]. apply lookup_ge_None in Ep. pose proof (Forall2_length _ _ _ HM). lia. }
  rewrite EC. apply Forall_forall. intros c Hc. apply elem_of_map in Hc as (p & -> & Hp). apply elem_of_map in Hp as (q & -> & Hq). apply (proj1 (Forall_forall _ _) HC q Hq).
Qed.
(** With more room for groups than there are groups, exchangeAtoms completes. *)
Theorem group_atoms_complete dims G s sys : group_system dims G sys -> room G sys -> exists sys1, gexchangeAtoms s sys = Ok sys1.
Proof. intros HG HC. destruct (exchanged_with_room dims G s sys HG HC) as (sys1 & _ & H & _). eauto. Qed.

(** ** C75: atoms of groups are found *)
(** Groups of any size, if their atoms are closer than the widths of slabs. *)
Theorem groups_complete dims m s G sys : group_system dims G sys -> displaced dims m (map gpX sys) -> slabs dims m s -> room G sys ->
  populated G (map gpX sys) -> close dims s G (map gpX sys) -> exists sys2, gexchange s sys = Ok sys2.
Proof.
  intros HG HD HS HC HP HCl. destruct (exchanged_with_room dims G s sys HG HC) as (sys1 & ps & H1 & H2). unfold gexchange. rewrite H1. cbn [obind].
  apply (find_complete dims s G sys sys1 HG H1 ps H2). apply (reach_present dims m s G sys sys1 HG HD H1 ps H2 HP). intros b u v Hb Hu Hv Iu Iv _. exact (reach_close dims m s G sys sys1 HG HD H1 HS HCl b u v Hb Hu Hv Iu Iv).
Qed.
(** Bonds, even if they are longer than the slabs are wide: it is enough if the two atoms are less than the width of a domain apart. *)
Theorem bonds_complete dims m s e G sys : group_system dims G sys -> displaced dims m (map gpX sys) -> slabs dims m s -> room G sys -> populated G (map gpX sys) ->
  (forall i, i < 3 -> (vget m i < vget s i)%R) -> (forall i, i < 3 -> (vget e i + vget m i < width dims i)%R) ->
  Forall (fun q => Forall (placed dims s e (map gpX sys) q) (gpGroups q)) sys -> Forall (fun b => length (bAtoms b) <= 2) G -> exists sys2, gexchange s sys = Ok sys2.
Proof.
  intros HG HD HS HC HP Hms Hem HPl H2b. destruct (exchanged_with_room dims G s sys HG HC) as (sys1 & ps & H1 & H2). unfold gexchange. rewrite H1. cbn [obind].
  apply (find_complete dims s G sys sys1 HG H1 ps H2). apply (reach_present dims m s G sys sys1 HG HD H1 ps H2 HP). intros b u v Hb Hu Hv Iu Iv Hne.
  refine (reach_bond dims m s G sys sys1 HG HD H1 HS e Hms Hem _ b u v Hb (proj1 (Forall_forall _ _) H2b b Hb) Hu Hv Iu Iv Hne).
  intros r q g Hq Hg. exact (proj1 (Forall_forall _ _) (proj1 (Forall_forall _ _) HPl q (elem_of_list_lookup_2 _ _ _ Hq)) g Hg).
Qed.

(** ** The images of atoms, with groups *)
Section images.
  Context (dims : vec3 Z) (m s : vec3 R) (G : list bond) (sys sys2 : list gproc).
  Context (HG : group_system dims G sys) (HD : displaced dims m (map gpX sys)) (H : gexchange s sys = Ok sys2).
  (** As without groups, every processor has all images in the slab around its domain... *)
  Theorem group_images q p : slabs dims m s -> sys2 !! q = Some p -> forall u k, u ∈ held (map gpX sys2) -> near (xpDom (gpX p)) s (translate (xPos u.2) k) ->
    exists b, b ∈ locals (gpX p) ++ ghosts (gpX p) /\ is_image u.2 k b.
  Proof.
    intros HS Hq u k Hu HN. pose proof (gs_grid _ _ (gy_grid _ _ _ HG)) as Hd. unfold gexchange in H. destruct (gexchangeAtoms s sys) as [sys1| |] eqn:H1; try discriminate. cbn [obind] in H.
    destruct (find_result dims s G sys sys1 HG H1 sys2 H) as [HE _]. destruct (gexchange_atoms_raw dims G s sys HG sys1 H1) as (mid & xs & _ & E1 & HX & Exs & HM & HR & HRm & HI & HRd & _).
    destruct (exchange_ghosts_ready dims Hd _ _ HRd HE) as (GI & HT & ED & _ & EH & EP). rewrite EH in Hu. pose proof (ginv_len _ _ GI) as HL.
    assert (Hp' : map gpX sys2 !! q = Some (gpX p)) by (by rewrite list_lookup_fmap, Hq). assert (Hqn : q < n_proc dims) by (rewrite <- HL; by eapply lookup_lt_Some).
    pose proof (dom_at dims _ q _ (gi_dom _ _ GI) Hp') as HDq. pose proof (proj1 (near_yy dims Hd q _ _ _ HDq) HN) as HN'. clear HN.
    destruct (fin_of dims m s G sys sys1 HG HD H1 u Hu) as [u0 Fu]. set (z := fun i => (vget (coords dims u.1) i - vget (coords dims q) i + vget k i * vget dims i)%Z).
    assert (HZ : forall i, i < 3 -> yy dims i q (translate (xPos u.2) k) = (yy dims i u.1 (xPos u.2) + IZR (z i))%R).
    { intros i Hi. rewrite yy_translate by done. unfold yy, z. rewrite plus_IZR, !minus_IZR, !mult_IZR. lra. }
    assert (HA : forall i, i < 3 -> allowed i (- z i) (u.1, ng u.2)).
    { intros i Hi. specialize (HN' i Hi). rewrite HZ in HN' by done. pose proof (fin_in dims m s G sys HG HD u0 u Fu i Hi) as Y. destruct (fn_flags _ _ _ _ _ _ Fu HS i Hi) as [F0 F1].
      destruct (w_dd dims m s G sys HG HS i Hi) as [W1 W2]. pose proof (m_dd dims m G sys HG HD i Hi) as M1. unfold allowed, gh. cbn [snd ng xPlan].
      assert (Z1 : (-2 < IZR (z i) < 2)%R) by lra. destruct (int_cases (z i) Z1) as [E|[E|E]]; rewrite E in *; [right; right|by left|right; left]; (split; [done|]); [apply F1|apply F0]; lra. }
    destruct (copies_in dims Hd (V3 (- z 0%nat)%Z (- z 1%nat)%Z (- z 2%nat)%Z) (u.1, ng u.2) (fn_vn _ _ _ _ _ _ Fu)) as (v & Hv & [M1 (M2 & M2' & k' & M3) M4]).
    { intros i Hi. destruct i as [|[|[|]]]; [by apply HA|by apply HA|by apply HA|lia]. }
    assert (X : v.1 = q /\ k' = k).
    { apply (yy_determines dims Hd (xPos u.2)); [done|done|]. intros i Hi. rewrite HZ by done. specialize (M4 i Hi). cbn [fst snd ng xPos] in M3, M4. rewrite M3 in M4. rewrite M4. destruct i as [|[|[|]]]; [| | |lia]; cbn [vget vx vy vz]; rewrite opp_IZR; lra. }
    destruct X as [Ev Ek]. assert (HvT : v ∈ TF (atr LG (map gpX sys2)) (n_proc dims)). { rewrite HT. apply elem_of_flat_map. exists (u.1, ng u.2). split; [|done]. apply elem_of_map. eauto. }
    unfold TF in HvT. apply elem_of_flat_map in HvT as (r' & _ & HvT). apply elem_of_map in HvT as (b & E & Hb). rewrite E in Ev, M2, M2', M3. cbn [fst snd] in Ev, M2, M2', M3. subst r'. unfold atr in Hb. rewrite Hp' in Hb.
    unfold LG in Hb. apply elem_of_map in Hb as (h & -> & Hh). exists (xpMem (gpX p) h). split; [unfold locals, ghosts; rewrite <- map_app; apply elem_of_map; eauto|]. split; [done|]. split; [done|]. cbn in M3. by rewrite M3, Ek.
  Qed.
  (** ... and none of them twice. *)
  Theorem group_images_once q p : sys2 !! q = Some p -> NoDup (map (fun b => (xId b, xPos b)) (locals (gpX p) ++ ghosts (gpX p))).
  Proof.
    intros Hq. pose proof (gs_grid _ _ (gy_grid _ _ _ HG)) as Hd. unfold gexchange in H. destruct (gexchangeAtoms s sys) as [sys1| |] eqn:H1; try discriminate. cbn [obind] in H.
    destruct (find_result dims s G sys sys1 HG H1 sys2 H) as [HE _]. destruct (gexchange_atoms_raw dims G s sys HG sys1 H1) as (mid & xs & _ & E1 & HX & Exs & HM & HR & HRm & HI & HRd & _).
    destruct (exchange_ghosts_ready dims Hd _ _ HRd HE) as (GI & HT & ED & _ & EH & EP). pose proof (ginv_len _ _ GI) as HL.
    assert (Hp' : map gpX sys2 !! q = Some (gpX p)) by (by rewrite list_lookup_fmap, Hq). assert (Hqn : q < n_proc dims) by (rewrite <- HL; by eapply lookup_lt_Some).
    assert (HN : NoDup (map (fun v : nat * xatom => (xId v.2, (v.1, xPos v.2))) (TF (atr LG (map gpX sys2)) (n_proc dims)))).
    { rewrite HT. apply (NoDup_flat_key (copies dims) (fun u => xId u.2) (fun v => xId v.2) (fun v => (v.1, xPos v.2))).
      - rewrite map_map. exact (held1_nodup dims s G sys sys1 HG H1).
      - intros x v Hx Hv. apply elem_of_map in Hx as (u & -> & Hu). destruct (fin_of dims m s G sys sys1 HG HD H1 u Hu) as [u0 Fu].
        destruct (copies_inv dims Hd (u.1, ng u.2) v (fn_vn _ _ _ _ _ _ Fu) Hv) as (e & _ & [_ (I1 & _) _]). exact I1.
      - intros x Hx. apply elem_of_map in Hx as (u & -> & Hu). destruct (fin_of dims m s G sys sys1 HG HD H1 u Hu) as [u0 Fu]. by apply copies_once; [|exact (fn_vn _ _ _ _ _ _ Fu)]. }
    destruct (TF_split (atr LG (map gpX sys2)) (n_proc dims) q Hqn) as (X & Y & E). rewrite E in HN. rewrite !map_app in HN. apply NoDup_app in HN as (_ & _ & HN). apply NoDup_app in HN as (HN & _).
    unfold atr in HN. rewrite Hp' in HN. rewrite map_map in HN. cbn [fst snd] in HN. unfold LG in HN. rewrite map_map in HN. unfold locals, ghosts. rewrite <- map_app, map_map.
    cbn [ng xId xPos] in HN.
    match goal with |- NoDup ?x => apply (NoDup_fmap_1 (fun c : Z * vec3 R => (c.1, (q, c.2))) x) end. match type of HN with NoDup ?x => match goal with |- NoDup ?y => replace y with x end end; [done|].
    change (@fmap list _ _ _) with (@map (Z * vec3 R) (Z * (nat * vec3 R))). rewrite map_map. done.
  Qed.
End images.
