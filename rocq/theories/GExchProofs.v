(** Proofs about the exchange of groups: every processor has the groups of its atoms. *)
From Verif Require Import Base Containers Vec3 PlanModel DomainModel DomainSpec DomainProofs DomainProps SpeciesModel SpeciesProofs SimProofs DistSpec ExchModel ExchSpec ExchProofs ExchAtoms ExchElem ExchStart ExchGhost ExchCopies ExchFinal GExchModel GExchSpec.
From Coq Require Import Reals Lra.
Local Open Scope nat_scope.
Ltac gc := cbn [gKind gId gType gAtoms gPtrs gPlan gpX gpCap gpGroups with_ptrs with_plan fst snd bKind bId bType bAtoms] in *.

(** ** Lists *)
Lemma find_atom_Some mem l id h : find_atom mem l id = Some h -> h ∈ l /\ xId (mem h) = id.
Proof. intros H. apply List.find_some in H as [H1 H2]. split; [by apply elem_of_list_In|]. by apply Z.eqb_eq. Qed.
Lemma find_atom_None mem l id : find_atom mem l id = None <-> forall h, h ∈ l -> xId (mem h) <> id.
Proof.
  split.
  - intros H h Hh E. pose proof (List.find_none _ _ H h) as X. cbn beta in X. rewrite E, Z.eqb_refl in X. by specialize (X (proj1 (elem_of_list_In _ _) Hh)).
  - intros H. destruct (find_atom mem l id) as [h|] eqn:E; [|done]. apply find_atom_Some in E as [E1 E2]. by destruct (H h E1).
Qed.
Definition ids (mem : nat -> xatom) (l : list nat) : list Z := map (fun h => xId (mem h)) l.
Lemma ids_inj mem l h h' : NoDup (ids mem l) -> h ∈ l -> h' ∈ l -> xId (mem h) = xId (mem h') -> h = h'.
Proof.
  intros HN H1 H2 E. apply elem_of_list_lookup in H1 as [x Hx], H2 as [y Hy].
  assert (x = y); [|congruence]. apply (NoDup_lookup _ _ _ (xId (mem h)) HN); unfold ids; rewrite list_lookup_fmap.
  - by rewrite Hx.
  - by rewrite Hy, E.
Qed.
Lemma find_atom_iff mem l id h : NoDup (ids mem l) -> find_atom mem l id = Some h <-> h ∈ l /\ xId (mem h) = id.
Proof.
  intros HN. split; [apply find_atom_Some|]. intros [H1 H2]. destruct (find_atom mem l id) as [h'|] eqn:E.
  - apply find_atom_Some in E as [E1 E2]. f_equal. apply (ids_inj mem l); [done..|congruence].
  - by destruct (proj1 (find_atom_None _ _ _) E h H1).
Qed.
Lemma find_atom_ext mem mem' l id : (forall h, h ∈ l -> xId (mem' h) = xId (mem h)) -> find_atom mem' l id = find_atom mem l id.
Proof.
  induction l as [|h l IH]; [done|]. intros H. unfold find_atom in *. cbn [List.find]. rewrite (H h) by (by left). destruct (Z.eqb _ _); [done|]. apply IH. intros k Hk. apply H. by right.
Qed.
Lemma find_atom_app mem l k id : find_atom mem (l ++ k) id = match find_atom mem l id with Some h => Some h | None => find_atom mem k id end.
Proof. induction l as [|h l IH]; [done|]. unfold find_atom in *. cbn [app List.find]. destruct (Z.eqb _ _); [done|]. exact IH. Qed.
Lemma find_atom_filter mem l id f : NoDup (ids mem l) -> find_atom mem (List.filter f l) id = match find_atom mem l id with Some h => if f h then Some h else None | None => None end.
Proof.
  intros HN. destruct (find_atom mem l id) as [h|] eqn:E.
  - apply find_atom_Some in E as [E1 E2]. destruct (f h) eqn:Ef.
    + apply find_atom_iff; [|by rewrite elem_of_filter_b]. unfold ids in *. clear -HN. induction l as [|h l IH]; [done|]. cbn [map List.filter] in *. apply NoDup_cons in HN as [H1 H2].
      destruct (f h); [|by apply IH]. cbn [map]. apply NoDup_cons. split; [|by apply IH]. intros X. apply H1. apply elem_of_map in X as (y & -> & Hy). apply elem_of_filter_b in Hy as [Hy _]. apply elem_of_map. eauto.
    + apply find_atom_None. intros k Hk Ek. apply elem_of_filter_b in Hk as [Hk Hf]. assert (k = h) as -> by (apply (ids_inj mem l); [done..|congruence]). congruence.
  - apply find_atom_None. intros k Hk. apply elem_of_filter_b in Hk as [Hk _]. by apply (proj1 (find_atom_None _ _ _) E).
Qed.
Lemma ids_ext mem mem' l : (forall h, h ∈ l -> xId (mem' h) = xId (mem h)) -> ids mem' l = ids mem l.
Proof. intros H. apply map_ext_elem. exact H. Qed.
Lemma ids_filter mem f l : NoDup (ids mem l) -> NoDup (ids mem (List.filter f l)).
Proof.
  unfold ids. induction l as [|h l IH]; [done|]. cbn [map List.filter]. intros HN. apply NoDup_cons in HN as [H1 H2].
  destruct (f h); [|by apply IH]. cbn [map]. apply NoDup_cons. split; [|by apply IH]. intros X. apply H1. apply elem_of_map in X as (y & -> & Hy). apply elem_of_filter_b in Hy as [Hy _]. apply elem_of_map. eauto.
Qed.

(** ** Groups that belong to a list of local atoms *)
Definition keys (gs : list ggroup) : list (nat * Z) := map (fun g => bkey (bond_of g)) gs.
Definition touches (mem : nat -> xatom) (l : list nat) (b : bond) : Prop := exists h, h ∈ l /\ xId (mem h) ∈ bAtoms b.
Record right (G : list bond) (mem : nat -> xatom) (l : list nat) (gs : list ggroup) : Prop := {
  rt_ids : NoDup (ids mem l);
  rt_once : NoDup (keys gs);
  rt_in : forall b, b ∈ map bond_of gs <-> b ∈ G /\ touches mem l b;
  rt_ptrs : forall g, g ∈ gs -> gPtrs g = map (find_atom mem l) (gAtoms g) }.
Lemma right_ext G mem mem' l gs : (forall h, h ∈ l -> xId (mem' h) = xId (mem h)) -> right G mem l gs -> right G mem' l gs.
Proof.
  intros H [R1 R2 R3 R4]. split; [by rewrite (ids_ext mem)|done| |].
  - intros b. rewrite R3. split; intros [X (h & Hh & E)]; (split; [done|]); exists h; (split; [done|]); by rewrite ?(H h Hh) in *.
  - intros g Hg. rewrite R4 by done. apply map_ext. intros id. symmetry. by apply find_atom_ext.
Qed.
Lemma elem_bond gs g : g ∈ gs -> bond_of g ∈ map bond_of gs.
Proof. intros H. apply elem_of_map. eauto. Qed.
Lemma elem_ptrs g h : h ∈ ptrs g <-> Some h ∈ gPtrs g.
Proof. unfold ptrs. rewrite elem_of_list_omap. split; [intros (o & H & E); by subst|]. intros H. by exists (Some h). Qed.
Lemma right_ptr G mem l gs g h : right G mem l gs -> g ∈ gs -> h ∈ ptrs g <-> h ∈ l /\ xId (mem h) ∈ gAtoms g.
Proof.
  intros R Hg. rewrite elem_ptrs, (rt_ptrs _ _ _ _ R g Hg), elem_of_map. split.
  - intros (id & E & Hid). symmetry in E. apply find_atom_Some in E as [E1 E2]. by subst id.
  - intros [H1 H2]. exists (xId (mem h)). split; [|done]. symmetry. apply find_atom_iff; [apply R|done].
Qed.
Lemma drop_ptrs_bond f g : bond_of (drop_ptrs f g) = bond_of g.
Proof. done. Qed.
Lemma set_local_bond p g : bond_of (set_local p g) = bond_of g.
Proof. done. Qed.
Lemma map_drop_keys f gs : keys (map (drop_ptrs f) gs) = keys gs.
Proof. unfold keys. rewrite map_map. by apply map_ext. Qed.
Lemma keys_filter f gs : NoDup (keys gs) -> NoDup (keys (List.filter f gs)).
Proof.
  unfold keys. induction gs as [|h l IH]; [done|]. cbn [map List.filter]. intros HN. apply NoDup_cons in HN as [H1 H2].
  destruct (f h); [|by apply IH]. cbn [map]. apply NoDup_cons. split; [|by apply IH]. intros X. apply H1. apply elem_of_map in X as (y & -> & Hy). apply elem_of_filter_b in Hy as [Hy _]. apply elem_of_map. eauto.
Qed.

(** *** pack *)
Lemma gpack_left i j G q : right G (xpMem (gpX q)) (xpLocals (gpX q)) (gpGroups q) ->
  right G (xpMem (gpX q)) (List.filter (fun h => negb (exchange (xPlan (xpMem (gpX q) h)) i j)) (xpLocals (gpX q))) (gpack i j q).1.
Proof.
  intros R. set (out := fun h => exchange (xPlan (xpMem (gpX q) h)) i j). set (l := List.filter _ _).
  assert (HP : forall g, g ∈ gpGroups q -> gPtrs (drop_ptrs out g) = map (find_atom (xpMem (gpX q)) l) (gAtoms g)).
  { intros g Hg. unfold drop_ptrs. gc. rewrite (rt_ptrs _ _ _ _ R g Hg), map_map. apply map_ext. intros id. unfold l. rewrite find_atom_filter by apply R.
    destruct (find_atom _ _ id) as [h|]; [|done]. unfold out. by destruct (exchange _ i j). }
  unfold gpack. gc. split.
  - apply ids_filter. apply R.
  - apply keys_filter. rewrite map_drop_keys. apply R.
  - intros b. rewrite elem_of_map. split.
    + intros (g' & -> & Hg'). apply elem_of_filter_b in Hg' as [Hg' Hne]. apply elem_of_map in Hg' as (g & -> & Hg). rewrite drop_ptrs_bond.
      split; [by apply (rt_in _ _ _ _ R), elem_bond|]. rewrite negb_true_iff, bool_decide_eq_false in Hne.
      destruct (ptrs (drop_ptrs out g)) as [|h t] eqn:E; [done|]. assert (Hh : h ∈ ptrs (drop_ptrs out g)) by (rewrite E; by left).
      rewrite elem_ptrs, (HP g Hg), elem_of_map in Hh. destruct Hh as (id & E1 & Hid). symmetry in E1. apply find_atom_Some in E1 as [E1 E2]. exists h. split; [done|]. by rewrite E2.
    + intros [Hb (h & Hh & E)]. assert (Hb' : b ∈ map bond_of (gpGroups q)).
      { apply (rt_in _ _ _ _ R). split; [done|]. exists h. split; [by apply elem_of_filter_b in Hh as [? _]|done]. }
      apply elem_of_map in Hb' as (g & -> & Hg). exists (drop_ptrs out g). split; [done|]. apply elem_of_filter_b. split; [apply elem_of_map; eauto|].
      rewrite negb_true_iff, bool_decide_eq_false. intros EN. assert (Hx : h ∈ ptrs (drop_ptrs out g)).
      { rewrite elem_ptrs, (HP g Hg), elem_of_map. exists (xId (xpMem (gpX q) h)). split; [|done]. symmetry. apply find_atom_iff; [apply ids_filter; apply R|done]. }
      rewrite EN in Hx. by apply elem_of_nil in Hx.
  - intros g' Hg'. apply elem_of_filter_b in Hg' as [Hg' _]. apply elem_of_map in Hg' as (g & -> & Hg). exact (HP g Hg).
Qed.
Lemma gpack_msg i j G q : right G (xpMem (gpX q)) (xpLocals (gpX q)) (gpGroups q) ->
  NoDup (keys (gpack i j q).2) /\
  (forall b, b ∈ map bond_of (gpack i j q).2 <-> b ∈ G /\ touches (xpMem (gpX q)) (List.filter (fun h => exchange (xPlan (xpMem (gpX q) h)) i j) (xpLocals (gpX q))) b) /\
  (forall g, g ∈ (gpack i j q).2 -> exists g0, g0 ∈ gpGroups q /\ bond_of g = bond_of g0 /\ gPlan g = gPlan g0 /\ exists h, h ∈ xpLocals (gpX q) /\ xId (xpMem (gpX q) h) ∈ gAtoms g /\ exchange (xPlan (xpMem (gpX q) h)) i j = true).
Proof.
  intros R. unfold gpack. gc. split; [|split].
  - rewrite map_drop_keys. apply keys_filter. apply R.
  - intros b. rewrite map_map. rewrite elem_of_map. split.
    + intros (g & -> & Hg). rewrite drop_ptrs_bond. apply elem_of_filter_b in Hg as [Hg He]. split; [by apply (rt_in _ _ _ _ R), elem_bond|].
      apply existsb_exists in He as (h & Hh & He). apply elem_of_list_In in Hh. apply (right_ptr _ _ _ _ _ _ R Hg) in Hh as [H1 H2]. exists h. split; [by apply elem_of_filter_b|done].
    + intros [Hb (h & Hh & E)]. apply elem_of_filter_b in Hh as [Hh He]. assert (Hb' : b ∈ map bond_of (gpGroups q)).
      { apply (rt_in _ _ _ _ R). split; [done|]. by exists h. }
      apply elem_of_map in Hb' as (g & -> & Hg). exists g. split; [done|]. apply elem_of_filter_b. split; [done|]. apply existsb_exists. exists h. split; [|done]. apply elem_of_list_In. by apply (right_ptr _ _ _ _ _ _ R Hg).
  - intros g' Hg'. apply elem_of_map in Hg' as (g & -> & Hg). apply elem_of_filter_b in Hg as [Hg He]. exists g. split; [done|]. split; [done|]. split; [done|].
    apply existsb_exists in He as (h & Hh & He). apply elem_of_list_In in Hh. apply (right_ptr _ _ _ _ _ _ R Hg) in Hh as [H1 H2]. by exists h.
Qed.

(** *** unpack *)
Global Instance bond_eq_dec : EqDecision bond.
Proof. solve_decision. Defined.
Lemma same_key_iff g h : same_key g h = true <-> bkey (bond_of g) = bkey (bond_of h).
Proof. unfold same_key, bkey, bond_of. gc. rewrite andb_true_iff, Nat.eqb_eq, Z.eqb_eq. split; [intros [-> ->]; done|]. intros E. by injection E as -> ->. Qed.
Lemma bond_key_inj (G : list bond) b c : NoDup (map bkey G) -> b ∈ G -> c ∈ G -> bkey b = bkey c -> b = c.
Proof.
  intros HN H1 H2 E. apply elem_of_list_lookup in H1 as [x Hx], H2 as [y Hy].
  assert (x = y); [|congruence]. apply (NoDup_lookup _ _ _ (bkey b) HN); rewrite list_lookup_fmap; [by rewrite Hx|by rewrite Hy, E].
Qed.
(** The state after some groups [dn] of the message; [l0] are the atoms before. *)
Record taking (p : xproc) (l0 : list nat) (gs0 dn gs : list ggroup) : Prop := {
  tk_once : NoDup (keys gs);
  tk_in : forall b, b ∈ map bond_of gs <-> b ∈ map bond_of gs0 \/ b ∈ map bond_of dn;
  tk_new : forall g, g ∈ gs -> bond_of g ∈ map bond_of dn -> gPtrs g = map (find_atom (xpMem p) (xpLocals p)) (gAtoms g);
  tk_old : forall g, g ∈ gs -> bond_of g ∉ map bond_of dn -> gPtrs g = map (find_atom (xpMem p) l0) (gAtoms g);
  tk_plan : forall g, g ∈ gs -> (exists g0, g0 ∈ gs0 /\ bond_of g0 = bond_of g /\ gPlan g0 = gPlan g) \/ ((forall g0, g0 ∈ gs0 -> bond_of g0 <> bond_of g) /\ exists m, m ∈ dn /\ bond_of m = bond_of g /\ gPlan m = gPlan g) }.
Lemma gtake_step G p cap l0 gs0 dn gs g gs' : NoDup (map bkey G) -> (forall b, b ∈ map bond_of gs0 \/ b ∈ map bond_of (dn ++ [g]) -> b ∈ G) ->
  taking p l0 gs0 dn gs -> gtake p cap gs g = Ok gs' -> taking p l0 gs0 (dn ++ [g]) gs'.
Proof.
  intros HK HG [T1 T2 T3 T4 T5] H. unfold gtake in H. destruct (decide _); [|discriminate].
  assert (HGs : forall h, h ∈ gs -> bond_of h ∈ G).
  { intros h Hh. apply HG. rewrite map_app, elem_of_app. apply elem_bond in Hh. apply T2 in Hh. tauto. }
  assert (Hg : bond_of g ∈ G) by (apply HG; right; rewrite map_app, elem_of_app; right; by left).
  destruct (existsb (same_key g) gs) eqn:Ex; injection H as <-.
  - set (f := fun h => if same_key g h then set_local p h else h). assert (Hf : forall h, bond_of (f h) = bond_of h) by (intros h; unfold f; by destruct (same_key g h)).
    assert (Hfp : forall h, gPlan (f h) = gPlan h) by (intros h; unfold f; by destruct (same_key g h)).
    apply existsb_exists in Ex as (g1 & Hg1 & E1). apply elem_of_list_In in Hg1. rewrite same_key_iff in E1.
    assert (Eg : bond_of g = bond_of g1) by (apply (bond_key_inj G); auto).
    assert (Ek : forall h, h ∈ gs -> same_key g h = true <-> bond_of h = bond_of g).
    { intros h Hh. rewrite same_key_iff. split; [|by intros ->]. intros E. symmetry. apply (bond_key_inj G); auto. }
    split.
    + unfold keys. rewrite map_map. replace (map _ gs) with (keys gs); [done|]. apply map_ext. intros h. by rewrite Hf.
    + intros b. rewrite map_map. rewrite (map_ext _ bond_of) by exact Hf. rewrite T2, map_app, elem_of_app. cbn [map]. rewrite elem_of_list_singleton. split; [tauto|]. intros [?|[?| ->]]; [tauto|tauto|].
      apply T2. rewrite Eg. by apply elem_bond.
    + intros h' Hh'. apply elem_of_map in Hh' as (h & -> & Hh). rewrite Hf, map_app, elem_of_app. cbn [map]. rewrite elem_of_list_singleton. intros [Hb|Hb].
      * unfold f. destruct (same_key g h); [done|]. by apply T3.
      * unfold f. rewrite (proj2 (Ek h Hh) Hb). done.
    + intros h' Hh'. apply elem_of_map in Hh' as (h & -> & Hh). rewrite Hf, map_app, elem_of_app. cbn [map]. rewrite elem_of_list_singleton. intros Hb. unfold f.
      destruct (same_key g h) eqn:E; [|by apply T4; tauto]. apply Ek in E; [|done]. tauto.
    + intros h' Hh'. apply elem_of_map in Hh' as (h & -> & Hh). rewrite Hf, Hfp. destruct (T5 h Hh) as [X|[X (m & Hm & Y)]]; [by left|]. right. split; [done|]. exists m. split; [apply elem_of_app; by left|done].
  - assert (Hn : bond_of g ∉ map bond_of gs).
    { intros X. apply elem_of_map in X as (h & E & Hh). assert (X : existsb (same_key g) gs = true); [|congruence]. apply existsb_exists. exists h. split; [by apply elem_of_list_In|]. apply same_key_iff. by rewrite E. }
    split.
    + unfold keys. rewrite map_app. apply NoDup_app. split; [done|]. split; [|apply NoDup_singleton]. intros x Hx Hx'. cbn [map] in Hx'. rewrite elem_of_list_singleton in Hx'. rewrite set_local_bond in Hx'.
      apply elem_of_map in Hx as (h & E & Hh). apply Hn. apply elem_of_map. exists h. split; [|done]. apply (bond_key_inj G); [done|done|auto|congruence].
    + intros b. rewrite !map_app, !elem_of_app, T2. cbn [map]. rewrite !elem_of_list_singleton, set_local_bond. tauto.
    + intros h Hh. rewrite elem_of_app, elem_of_list_singleton in Hh. rewrite map_app, elem_of_app. cbn [map]. rewrite elem_of_list_singleton. destruct Hh as [Hh| ->]; [|done].
      intros [Hb|Hb]; [by apply T3|]. exfalso. apply Hn. rewrite <- Hb. by apply elem_bond.
    + intros h Hh. rewrite elem_of_app, elem_of_list_singleton in Hh. rewrite map_app, elem_of_app. cbn [map]. rewrite elem_of_list_singleton. destruct Hh as [Hh| ->]; [intros; apply T4; tauto|]. rewrite set_local_bond. tauto.
    + intros h Hh. rewrite elem_of_app, elem_of_list_singleton in Hh. destruct Hh as [Hh| ->].
      * destruct (T5 h Hh) as [X|[X (m & Hm & Y)]]; [by left|]. right. split; [done|]. exists m. split; [apply elem_of_app; by left|done].
      * right. split; [|exists g; split; [apply elem_of_app; right; by left|done]]. intros g0 Hg0 E. apply Hn. apply T2. left. rewrite set_local_bond in E. rewrite <- E. by apply elem_bond.
Qed.
Lemma gunpack_taking G p cap l0 gs0 msg : NoDup (map bkey G) -> (forall b, b ∈ map bond_of gs0 \/ b ∈ map bond_of msg -> b ∈ G) ->
  forall dn rest gs gs', msg = dn ++ rest -> taking p l0 gs0 dn gs -> gunpack p cap gs rest = Ok gs' -> taking p l0 gs0 msg gs'.
Proof.
  intros HK HG dn rest. revert dn. induction rest as [|g rest IH]; intros dn gs gs' E HT H; unfold gunpack in H; cbn [foldM] in H.
  - injection H as <-. by rewrite E, app_nil_r.
  - destruct (gtake p cap gs g) as [gs1| |] eqn:E1; cbn [obind] in H; try discriminate.
    apply (IH (dn ++ [g]) gs1 gs'); [by rewrite <- app_assoc| |exact H]. eapply gtake_step; [exact HK| |exact HT|exact E1].
    intros b [Hb|Hb]; apply HG; [by left|]. right. rewrite E. rewrite map_app, elem_of_app in Hb |- *. cbn [map] in *. rewrite elem_of_list_singleton in Hb. rewrite elem_of_cons. tauto.
Qed.
Lemma gunpack_right G p cap l0 news gs msg gs' : NoDup (map bkey G) -> right G (xpMem p) l0 gs -> xpLocals p = l0 ++ news -> NoDup (ids (xpMem p) (l0 ++ news)) ->
  (forall b, b ∈ map bond_of msg <-> b ∈ G /\ touches (xpMem p) news b) -> gunpack p cap gs msg = Ok gs' ->
  right G (xpMem p) (xpLocals p) gs' /\ taking p l0 gs msg gs'.
Proof.
  intros HK R EL HN HM H. assert (HT : taking p l0 gs msg gs').
  { refine (gunpack_taking G p cap l0 gs msg HK _ [] msg gs gs' eq_refl _ H).
    - intros b [Hb|Hb]; [by apply (rt_in _ _ _ _ R)|by apply HM].
    - split; [apply R| | | |].
      + intros b. cbn [map]. rewrite elem_of_nil. tauto.
      + intros g _ X. by apply elem_of_nil in X.
      + intros g Hg _. apply R. done.
      + intros g Hg. left. by exists g. }
  split; [|done]. destruct HT as [T1 T2 T3 T4 T5]. split; [by rewrite EL|done| |].
  - intros b. rewrite T2, (rt_in _ _ _ _ R), HM. unfold touches. rewrite EL. split.
    + intros [[? (h & Hh & E)]|[? (h & Hh & E)]]; (split; [done|]); exists h; (split; [apply elem_of_app; tauto|done]).
    + intros [Hb (h & Hh & E)]. apply elem_of_app in Hh as [Hh|Hh]; [left|right]; (split; [done|]); by exists h.
  - intros g Hg. destruct (decide (bond_of g ∈ map bond_of msg)) as [Hb|Hb]; [by apply T3|]. rewrite T4 by done. apply map_ext_elem. intros id Hid. rewrite EL, find_atom_app.
    destruct (find_atom (xpMem p) l0 id) as [h|] eqn:E; [done|]. symmetry. apply find_atom_None. intros h Hh Eh. apply Hb. apply HM. split.
    + assert (X : bond_of g ∈ map bond_of gs); [|by apply (rt_in _ _ _ _ R)]. pose proof (elem_bond _ _ Hg) as X. apply T2 in X. tauto.
    + exists h. split; [done|]. by rewrite Eh.
Qed.

(** ** Rounds *)
Definition rgt (G : list bond) (q : gproc) : Prop := right G (xpMem (gpX q)) (xpLocals (gpX q)) (gpGroups q).

Lemma take_ptrs i j msg : forall p, let p1 := fold_left (xtake i j) msg p in
  xpDom p1 = xpDom p /\ xpLocals p1 = xpLocals p ++ seq (xpNext p) (length msg) /\ xpNext p1 = xpNext p + length msg /\
  (forall h, h < xpNext p -> xpMem p1 h = xpMem p h) /\ map (fun h => (xId (xpMem p1 h), xPlan (xpMem p1 h))) (seq (xpNext p) (length msg)) = map (fun a => (xId a, xPlan a)) msg.
Proof.
  induction msg as [|a msg IH]; intros p; cbn zeta; cbn [fold_left length seq map].
  - rewrite app_nil_r. split; [done|]. split; [done|]. split; [lia|]. done.
  - destruct (IH (xtake i j p a)) as (I1 & I2 & I3 & I4 & I5). set (p1 := fold_left _ _ _) in *. unfold xtake in I1, I2, I3, I5. cbn [xpDom xpLocals xpNext] in I1, I2, I3, I5.
    split; [done|]. split; [rewrite I2, <- app_assoc; done|]. split; [lia|]. split.
    + intros h Hh. rewrite I4 by (cbn; lia). unfold xtake. cbn [xpMem]. rewrite decide_False by lia. done.
    + f_equal; [|exact I5]. rewrite I4 by (cbn; lia). unfold xtake. cbn [xpMem]. rewrite decide_True by done. done.
Qed.
Lemma ids_NoDup_app mem l k : NoDup (ids mem (l ++ k)) -> NoDup (ids mem l).
Proof. unfold ids. rewrite map_app. intros H. by apply NoDup_app in H as (? & _). Qed.

Section rounds.
  Context (dims : vec3 Z) (Hd : grid_ok dims) (G : list bond) (HK : NoDup (map bkey G)).
  Notation n := (n_proc dims).

  (** What a round does to the pointers of a processor. *)
  Record xstep (i j : nat) (ps : list xproc) (r : nat) (p p' : xproc) : Prop := {
    xs_dom : xpDom p' = xpDom p;
    xs_flag : (1 < vget dims i)%Z -> exists ps_src news, ps !! src dims i j r = Some ps_src /\
        xpLocals p' = List.filter (fun h => negb (ex i j (xpMem p h))) (xpLocals p) ++ news /\
        (forall h, h ∈ xpLocals p -> xpMem p' h = xpMem p h) /\ NoDup (ids (xpMem p') (xpLocals p')) /\
        map (fun h => (xId (xpMem p' h), xPlan (xpMem p' h))) news = map (fun h => (xId (xpMem ps_src h), xPlan (xpMem ps_src h))) (List.filter (fun h => ex i j (xpMem ps_src h)) (xpLocals ps_src));
    xs_noflag : ~ (1 < vget dims i)%Z -> xpLocals p' = xpLocals p /\ forall h, xId (xpMem p' h) = xId (xpMem p h) /\ xPlan (xpMem p' h) = xPlan (xpMem p h) }.
  Lemma xround_step i j ds ps ps' : after i j ds -> inv dims ((i, j) :: ds) ps -> xround i j ps = Ok ps' ->
    length ps' = length ps /\ forall r p, ps !! r = Some p -> exists p', ps' !! r = Some p' /\ xstep i j ps r p p'.
  Proof.
    intros HA HI H. destruct (after_cases _ _ _ HA) as (Hi & Hj & _). unfold xround in H. apply mapO_Ok in H. split; [apply Forall2_length in H; by rewrite !map_length in H|].
    intros r p Hp. assert (Hx : map fst (map (xpack i j) ps) !! r = Some (xpack i j p).1) by (by rewrite !list_lookup_fmap, Hp).
    destruct (Forall2_lookup_l _ _ _ _ _ H Hx) as (p' & Hp' & E). exists p'. split; [done|]. cbn beta in E.
    pose proof (dom_at dims ps r p (iv_dom _ _ _ HI) Hp) as HDp. pose proof (flag_iff dims Hd r (xpDom p) i HDp Hi) as HF.
    assert (Edom : xpDom (xpack i j p).1 = xpDom p) by (unfold xpack; destruct (xflag (xpDom p) i); done). rewrite Edom, HF in E.
    destruct (proj1 (Forall_forall _ _) (iv_wf _ _ _ HI) p (elem_of_list_lookup_2 _ _ _ Hp)) as [W1 W2]. rewrite Forall_forall in W2.
    destruct (bool_decide (1 < vget dims i)%Z) eqn:B.
    - apply bool_decide_eq_true in B. destruct (from_source _ _ _ _) as [msg| |] eqn:EM; try discriminate. cbn [obind] in E. unfold from_source in EM. apply aget_Ok in EM.
      destruct (dom_tables dims Hd r _ HDp) as (_ & _ & HT). destruct (HT i j Hi Hj) as (-> & _ & _) in EM. rewrite !list_lookup_fmap in EM.
      destruct (ps !! src dims i j r) as [psr|] eqn:Es; [|done]. cbn in EM. injection EM as EM.
      assert (HDs := dom_at dims ps _ psr (iv_dom _ _ _ HI) Es). assert (HFs : xflag (xpDom psr) i = true) by (rewrite (flag_iff dims Hd _ _ i HDs Hi); by apply bool_decide_eq_true).
      unfold xpack in EM. rewrite HFs in EM. cbn [snd] in EM.
      unfold xpack in E. rewrite HF in E. cbn [fst] in E. unfold xunpack in E. destruct (decide _) as [Hc|]; [|discriminate]. injection E as E. cbn [xpLocals xpMem] in Hc.
      match type of E with fold_left _ _ ?q = _ => destruct (take_ptrs i j msg q) as (I1 & I2 & I3 & I4 & I5) end. rewrite E in I1, I2, I3, I4, I5. cbn [xpDom xpLocals xpNext xpMem] in I1, I2, I3, I4, I5.
      split; [done| |done]. intros _. exists psr, (seq (xpNext p) (length msg)). split; [done|]. split; [exact I2|]. split; [intros h Hh; apply I4; by apply W2|]. split.
      + rewrite I2. unfold ids. rewrite map_app. destruct Hc as [_ Hc]. 
        replace (map (fun h => xId (xpMem p' h)) (seq (xpNext p) (length msg))) with (map xId msg).
        2: { apply (f_equal (map fst)) in I5. rewrite !map_map in I5. cbn [fst] in I5. symmetry. exact I5. }
        replace (map (fun h => xId (xpMem p' h)) _) with (map (fun h => xId (xpMem p h)) (List.filter (fun h => negb (exchange (xPlan (xpMem p h)) i j)) (xpLocals p))); [done|].
        apply map_ext_elem. intros h Hh. apply elem_of_filter_b in Hh as [Hh _]. by rewrite I4 by (by apply W2).
      + rewrite I5, <- EM, map_map. done.
    - apply bool_decide_eq_false in B. injection E as E. unfold xpack in E. rewrite HF in E. cbn [fst] in E. subst p'. split; [done|done|]. intros _. split; [done|].
      intros h. cbn [xpMem]. destruct (decide _); done.
  Qed.

  (** What a round does to the groups of a processor. *)
  Record gstep (i j : nat) (sys : list gproc) (r : nat) (q q' : gproc) : Prop := {
    gs_x : xstep i j (map gpX sys) r (gpX q) (gpX q');
    gs_cap : gpCap q' = gpCap q;
    gs_flag : (1 < vget dims i)%Z -> exists qs, sys !! src dims i j r = Some qs /\ gunpack (gpX q') (gpCap q) (gpack i j q).1 (gpack i j qs).2 = Ok (gpGroups q');
    gs_noflag : ~ (1 < vget dims i)%Z -> gpGroups q' = gpGroups q }.
  Lemma ground_step i j ds sys sys' : after i j ds -> inv dims ((i, j) :: ds) (map gpX sys) -> ground i j sys = Ok sys' ->
    xround i j (map gpX sys) = Ok (map gpX sys') /\ length sys' = length sys /\ forall r q, sys !! r = Some q -> exists q', sys' !! r = Some q' /\ gstep i j sys r q q'.
  Proof.
    intros HA HI H. destruct (after_cases _ _ _ HA) as (Hi & Hj & _). unfold ground in H. destruct (xround i j (map gpX sys)) as [xs| |] eqn:EX; try discriminate. cbn [obind] in H. apply mapO_Ok in H.
    destruct (xround_step i j ds _ _ HA HI EX) as [HL HX]. rewrite map_length in HL.
    assert (EL : length sys' = length sys). { apply Forall2_length in H. rewrite zip_with_length in H. lia. }
    assert (HQ : forall r q, sys !! r = Some q -> exists q', sys' !! r = Some q' /\ xs !! r = Some (gpX q') /\ gstep i j sys r q q').
    { intros r q Hq. assert (Hx : map gpX sys !! r = Some (gpX q)) by (by rewrite list_lookup_fmap, Hq). destruct (HX r (gpX q) Hx) as (p' & Hp' & HS).
      assert (HZ : zip xs sys !! r = Some (p', q)) by (apply lookup_zip_with_Some; eauto). destruct (Forall2_lookup_l _ _ _ _ _ H HZ) as (q' & Hq' & E). exists q'. split; [done|]. cbn [fst snd] in E.
      pose proof (dom_at dims _ r (gpX q) (iv_dom _ _ _ HI) Hx) as HDp. rewrite (xs_dom _ _ _ _ _ _ HS) in E. rewrite (flag_iff dims Hd r _ i HDp Hi) in E.
      destruct (bool_decide (1 < vget dims i)%Z) eqn:B.
      - apply bool_decide_eq_true in B. destruct (dom_tables dims Hd r _ HDp) as (_ & _ & HT). destruct (HT i j Hi Hj) as (E1 & _ & _). rewrite E1 in E.
        destruct (aget _ _) as [msg| |] eqn:EM; try discriminate. cbn [obind] in E. apply aget_Ok in EM. rewrite !list_lookup_fmap in EM.
        destruct (sys !! src dims i j r) as [qs|] eqn:Es; [|done]. cbn in EM. injection EM as <-. destruct (gunpack _ _ _ _) as [gs| |] eqn:EG; try discriminate. cbn [obind] in E. injection E as <-. gc.
        split; [done|]. split; gc; [done|done| |done]. intros _. by exists qs.
      - apply bool_decide_eq_false in B. injection E as <-. split; [done|]. split; gc; [done|done|done|done]. }
    split; [|split; [done|intros r q Hq; destruct (HQ r q Hq) as (q' & ? & _ & ?); eauto]]. f_equal. apply list_eq. intros r. rewrite list_lookup_fmap.
    destruct (sys !! r) as [q|] eqn:E.
    - destruct (HQ r q E) as (q' & -> & -> & _). done.
    - apply lookup_ge_None in E. rewrite (proj2 (lookup_ge_None sys' r)) by lia. apply lookup_ge_None. lia.
  Qed.

  Lemma gstep_right i j sys r q q' : (forall r q, sys !! r = Some q -> rgt G q) -> sys !! r = Some q -> gstep i j sys r q q' ->
    rgt G q' /\ ((1 < vget dims i)%Z -> exists qs, sys !! src dims i j r = Some qs /\ taking (gpX q') (List.filter (fun h => negb (ex i j (xpMem (gpX q) h))) (xpLocals (gpX q))) (gpack i j q).1 (gpack i j qs).2 (gpGroups q')).
  Proof.
    intros HR Hq [X C F N]. pose proof (HR r q Hq) as R. destruct (decide (1 < vget dims i)%Z) as [B|B].
    - destruct (F B) as (qs & Hqs & HU). pose proof (HR _ qs Hqs) as Rs. destruct (xs_flag _ _ _ _ _ _ X B) as (ps & news & Hps & EL & EM & HN & EN).
      rewrite list_lookup_fmap, Hqs in Hps. cbn in Hps. injection Hps as <-. destruct (gpack_msg i j G qs Rs) as (M1 & M2 & _).
      assert (R1 : right G (xpMem (gpX q')) (List.filter (fun h => negb (ex i j (xpMem (gpX q) h))) (xpLocals (gpX q))) (gpack i j q).1).
      { refine (right_ext G _ _ _ _ _ (gpack_left i j G q R)). intros h Hh. apply elem_of_filter_b in Hh as [Hh _]. by rewrite EM. }
      assert (HT : forall b, b ∈ map bond_of (gpack i j qs).2 <-> b ∈ G /\ touches (xpMem (gpX q')) news b).
      { intros b. rewrite M2.
        assert (E : ids (xpMem (gpX q')) news = ids (xpMem (gpX qs)) (List.filter (fun h => ex i j (xpMem (gpX qs) h)) (xpLocals (gpX qs)))).
        { apply (f_equal (map fst)) in EN. rewrite !map_map in EN. exact EN. }
        assert (HE : forall mem l, touches mem l b <-> exists id, id ∈ ids mem l /\ id ∈ bAtoms b).
        { intros mem l. unfold touches, ids. split.
          - intros (h & Hh & E1). exists (xId (mem h)). split; [apply elem_of_map; eauto|done].
          - intros (id & Hid & E1). apply elem_of_map in Hid as (h & -> & Hh). eauto. }
        rewrite !HE, E. done. }
      destruct (gunpack_right G (gpX q') (gpCap q) _ news _ _ _ HK R1 EL ltac:(by rewrite <- EL) HT HU) as [R2 R3].
      split; [exact R2|]. intros _. eauto.
    - split; [|done]. destruct (xs_noflag _ _ _ _ _ _ X B) as [EL EM]. unfold rgt. rewrite (N B), EL. refine (right_ext G _ _ _ _ _ R). intros h _. apply EM.
  Qed.

  Lemma grounds_right ds : forall pre sys sys', dirs = pre ++ ds -> inv dims ds (map gpX sys) -> (forall r q, sys !! r = Some q -> rgt G q) ->
    foldM (fun sys ij => ground ij.1 ij.2 sys) sys ds = Ok sys' ->
    (forall r q, sys' !! r = Some q -> rgt G q) /\ foldM (fun sys ij => xround ij.1 ij.2 sys) (map gpX sys) ds = Ok (map gpX sys') /\ map gpCap sys' = map gpCap sys.
  Proof.
    induction ds as [|[i j] ds IH]; intros pre sys sys' E HI HR H; cbn [foldM fst snd] in *.
    - injection H as <-. done.
    - destruct (ground i j sys) as [s1| |] eqn:E1; cbn [obind] in H; try discriminate. assert (HA : after i j ds) by (by exists pre).
      destruct (ground_step i j ds sys s1 HA HI E1) as (HX & HL & HS). destruct (round_inv dims Hd i j ds _ _ HA HI HX) as (I1 & _).
      assert (HB : forall r q', s1 !! r = Some q' -> exists q, sys !! r = Some q /\ gstep i j sys r q q').
      { intros r q' Hq'. destruct (sys !! r) as [q|] eqn:Eq; [|apply lookup_ge_None in Eq; apply lookup_lt_Some in Hq'; lia]. destruct (HS r q Eq) as (q2 & ? & ?). assert (q2 = q') by congruence. subst. eauto. }
      destruct (IH (pre ++ [(i, j)]) s1 sys') as (J1 & J2 & J3); [by rewrite <- app_assoc|exact I1| |exact H|].
      { intros r q' Hq'. destruct (HB r q' Hq') as (q & Hq & HSt). exact (proj1 (gstep_right i j sys r q q' HR Hq HSt)). }
      split; [done|]. rewrite HX. cbn [obind]. split; [done|]. rewrite J3. apply list_eq. intros r. rewrite !list_lookup_fmap. destruct (sys !! r) as [q|] eqn:Eq.
      + destruct (HS r q Eq) as (q2 & -> & HG2). cbn. by rewrite (gs_cap _ _ _ _ _ _ HG2).
      + apply lookup_ge_None in Eq. rewrite (proj2 (lookup_ge_None s1 r)) by lia. done.
  Qed.
End rounds.
