(** Proofs about the exchange of groups: start, markGhosts, and the whole of exchangeAtoms. *)
From Verif Require Import Base Containers Vec3 PlanModel DomainModel DomainSpec DomainProofs DomainProps SpeciesModel SpeciesProofs SimProofs DistSpec ExchModel ExchSpec ExchProofs ExchAtoms ExchElem ExchStart ExchGhost ExchCopies ExchFinal GExchModel GExchSpec GExchProofs.
From Coq Require Import Reals Lra.
Local Open Scope nat_scope.

(** ** Start *)
Lemma xstart_id s p h : xId (xpMem (xstart s p) h) = xId (xpMem p h).
Proof. unfold xstart. cbn [xpMem]. destruct (decide _); done. Qed.
Lemma locals_touch p b : (exists a, a ∈ locals p /\ xId a ∈ bAtoms b) <-> touches (xpMem p) (xpLocals p) b.
Proof.
  unfold locals, touches. split.
  - intros (a & Ha & E). apply elem_of_map in Ha as (h & -> & Hh). eauto.
  - intros (h & Hh & E). exists (xpMem p h). split; [apply elem_of_map; eauto|done].
Qed.
Lemma mark_group_bond D s mem l g : bond_of (mark_group D s mem l g) = bond_of g.
Proof. done. Qed.
Lemma gstart_right G s q : NoDup (ids (xpMem (gpX q)) (xpLocals (gpX q))) -> groups_ok G q -> rgt G (gstart s q).
Proof.
  intros HN (HS & HL & HGh & Hdj). unfold rgt, gstart. gc. apply (right_ext G (xpMem (gpX q))); [intros h _; apply xstart_id|].
  change (xpLocals (xstart s (gpX q))) with (xpLocals (gpX q)). split; [done| | |].
  - unfold keys. rewrite map_map. exact (so_once _ _ HS).
  - intros b. rewrite map_map. rewrite (map_ext _ bond_of) by done. rewrite (so_local _ _ HS). by rewrite locals_touch.
  - intros g' Hg'. apply elem_of_map in Hg' as (g & -> & Hg). unfold mark_group, drop_ptrs. gc. pose proof (so_ptrs _ _ HS g Hg) as El.
    apply list_eq. intros k. rewrite !list_lookup_fmap. destruct (gAtoms g !! k) as [id|] eqn:Ek.
    + destruct (lookup_lt_is_Some_2 (gPtrs g) k) as [o Ho]; [rewrite El; by eapply lookup_lt_Some|]. rewrite Ho. cbn. f_equal.
      assert (HKt : kth q g k id) by done. symmetry. destruct o as [h|].
      * destruct (bool_decide (h ∈ xpGhosts (gpX q))) eqn:B.
        -- apply bool_decide_eq_true in B. apply find_atom_None. intros h' Hh' E. apply (HL g k id HKt h' Hh') in E. unfold points in E. assert (h' = h) as -> by congruence. by destruct (Hdj h B).
        -- apply bool_decide_eq_false in B. destruct (HGh g k id HKt h Ho) as [Hl|[? _]]; [|done]. apply find_atom_iff; [done|]. split; [done|]. by apply (HL g k id HKt h Hl).
      * apply find_atom_None. intros h' Hh' E. apply (HL g k id HKt h' Hh') in E. unfold points in E. congruence.
    + rewrite (proj2 (lookup_ge_None (gPtrs g) k)); [done|]. rewrite El. by apply lookup_ge_None.
Qed.

(** ** markGhosts *)
Definition sends_ok (p : xproc) : Prop := forall i j, i < 3 -> j < 2 -> xpSend p i j ≡ₚ List.filter (fun h => ghost (xPlan (xpMem p h)) i j) (xpLocals p).
Lemma more_refl a : more_ghosts a a.
Proof. unfold more_ghosts. done. Qed.
Lemma more_trans a b c : more_ghosts a b -> more_ghosts b c -> more_ghosts a c.
Proof.
  intros (A1 & A2 & A3 & A4 & A5 & A6) (B1 & B2 & B3 & B4 & B5 & B6). unfold more_ghosts. do 5 (split; [congruence|]). intros i j Hi Hj. destruct (A6 i j Hi Hj) as [X1 X2], (B6 i j Hi Hj) as [Y1 Y2]. split; [congruence|auto].
Qed.
Lemma marked_refl p : marked p p.
Proof. unfold marked. do 3 (split; [done|]). intros h. apply more_refl. Qed.
Lemma marked_trans p q r : marked p q -> marked q r -> marked p r.
Proof. intros (A1 & A2 & A3 & A4) (B1 & B2 & B3 & B4). unfold marked. do 3 (split; [congruence|]). intros h. eapply more_trans; [apply A4|apply B4]. Qed.
Lemma filter_add (f f' : nat -> bool) h l : NoDup l -> h ∈ l -> f h = false -> f' h = true -> (forall k, k <> h -> f' k = f k) -> List.filter f' l ≡ₚ List.filter f l ++ [h].
Proof.
  intros HN Hh E E' HE. induction l as [|k l IH]; [by apply elem_of_nil in Hh|]. apply NoDup_cons in HN as [H1 H2]. cbn [List.filter]. destruct (decide (k = h)) as [->|Hk].
  - rewrite E, E'. rewrite (filter_ext_in' f' f l); [|intros k Hk; apply HE; congruence]. apply Permutation_cons_append.
  - rewrite (HE k Hk). apply elem_of_cons in Hh as [?|Hh]; [congruence|]. destruct (f k); [cbn [app]; by rewrite IH|by apply IH].
Qed.
(** What stays the same. *)
Record mk (p q : xproc) : Prop := {
  mk_marked : marked p q;
  mk_rest : xpCap q = xpCap p /\ xpGCap q = xpGCap p /\ xpNext q = xpNext p /\ xpRecv q = xpRecv p;
  mk_sends : NoDup (xpLocals p) -> sends_ok p -> sends_ok q }.
Lemma mk_refl p : mk p p.
Proof. split; [apply marked_refl|done|done]. Qed.
Lemma mk_trans p q r : mk p q -> mk q r -> mk p r.
Proof.
  intros [A1 (A2 & A3 & A4 & A5) A6] [B1 (B2 & B3 & B4 & B5) B6]. split; [by eapply marked_trans|repeat split; congruence|]. intros HN HS. apply B6; [|by apply A6]. destruct A1 as (_ & E & _). by rewrite E.
Qed.
Lemma mark_one_mk i j p h : i < 3 -> j < 2 -> h ∈ xpLocals p -> mk p (mark_one i j p h) /\ ghost (xPlan (xpMem (mark_one i j p h) h)) i j = true.
Proof.
  intros Hi Hj Hh. unfold mark_one. destruct (ghost (xPlan (xpMem p h)) i j) eqn:E; [split; [apply mk_refl|done]|]. split.
  2: { cbn [xpMem]. rewrite decide_True by done. cbn [xPlan]. rewrite gh_setG by done. by rewrite !Nat.eqb_refl. }
  split; [|done|].
  - unfold marked. xc. do 3 (split; [done|]). intros k. destruct (decide (k = h)) as [->|]; [|apply more_refl]. unfold more_ghosts. xc. do 5 (split; [done|]). intros a b Ha Hb.
    rewrite ex_setG, gh_setG by done. split; [done|]. intros ->. by rewrite orb_true_r.
  - intros HN HS a b Ha Hb. xc. destruct (decide (a = i /\ b = j)) as [[-> ->]|Hne].
    + rewrite (HS i j Hi Hj). symmetry. apply filter_add; [done|done|done| |].
      * rewrite decide_True by done. cbn [xPlan]. rewrite gh_setG by done. by rewrite !Nat.eqb_refl.
      * intros k Hk. by rewrite decide_False by done.
    + rewrite (HS a b Ha Hb). rewrite (filter_ext_in' (fun k => ghost (xPlan (if decide (k = h) then _ else _)) a b) (fun k => ghost (xPlan (xpMem p k)) a b) (xpLocals p)); [done|]. intros k _.
      destruct (decide (k = h)) as [->|]; [|done]. cbn [xPlan]. rewrite gh_setG by done. destruct (Nat.eqb_spec a i), (Nat.eqb_spec b j); cbn [andb orb]; [tauto|done|done|done].
Qed.
Lemma mk_ghost p q h i j : mk p q -> i < 3 -> j < 2 -> ghost (xPlan (xpMem p h)) i j = true -> ghost (xPlan (xpMem q h)) i j = true.
Proof. intros [(_ & _ & _ & H) _ _] Hi Hj. destruct (H h) as (_ & _ & _ & _ & _ & X). by apply X. Qed.
Lemma mark_all i j l : i < 3 -> j < 2 -> forall p, (forall h, h ∈ l -> h ∈ xpLocals p) ->
  mk p (fold_left (mark_one i j) l p) /\ forall h, h ∈ l -> ghost (xPlan (xpMem (fold_left (mark_one i j) l p) h)) i j = true.
Proof.
  intros Hi Hj. induction l as [|h l IH]; intros p Hl; cbn [fold_left].
  - split; [apply mk_refl|]. intros h Hh. by apply elem_of_nil in Hh.
  - destruct (mark_one_mk i j p h Hi Hj) as [M1 M2]; [apply Hl; by left|].
    destruct (IH (mark_one i j p h)) as [I1 I2].
    { intros k Hk. destruct (mk_marked _ _ M1) as (_ & -> & _). apply Hl. by right. }
    split; [by eapply mk_trans|]. intros k Hk. apply elem_of_cons in Hk as [->|Hk]; [|by apply I2]. by apply (mk_ghost (mark_one i j p h)).
Qed.
Lemma mark_incomplete_mk p g : (forall h, h ∈ ptrs g -> h ∈ xpLocals p) -> mk p (mark_incomplete p g) /\
  (is_complete g = false -> forall i j h, i < 3 -> j < 2 -> xflag (xpDom p) i = true -> ghost (gPlan g) i j = true -> h ∈ ptrs g -> ghost (xPlan (xpMem (mark_incomplete p g) h)) i j = true).
Proof.
  intros Hl. unfold mark_incomplete. destruct (is_complete g); [split; [apply mk_refl|done]|].
  assert (HI : forall ds p, (forall ij, ij ∈ ds -> ij.1 < 3 /\ ij.2 < 2) -> (forall h, h ∈ ptrs g -> h ∈ xpLocals p) ->
    let p' := fold_left (fun p ij => if xflag (xpDom p) ij.1 && ghost (gPlan g) ij.1 ij.2 then fold_left (mark_one ij.1 ij.2) (ptrs g) p else p) ds p in
    mk p p' /\ forall i j h, (i, j) ∈ ds -> xflag (xpDom p) i = true -> ghost (gPlan g) i j = true -> h ∈ ptrs g -> ghost (xPlan (xpMem p' h)) i j = true).
  { clear p Hl. induction ds as [|[i j] ds IH]; intros p Hds Hl; cbn zeta; cbn [fold_left fst snd].
    - split; [apply mk_refl|]. intros i j h Hh. by apply elem_of_nil in Hh.
    - destruct (Hds (i, j) ltac:(by left)) as [Hi Hj]. cbn [fst snd] in Hi, Hj. set (p1 := if xflag (xpDom p) i && ghost (gPlan g) i j then _ else p).
      assert (M1 : mk p p1 /\ (xflag (xpDom p) i = true -> ghost (gPlan g) i j = true -> forall h, h ∈ ptrs g -> ghost (xPlan (xpMem p1 h)) i j = true)).
      { unfold p1. destruct (mark_all i j (ptrs g) Hi Hj p Hl) as [X1 X2]. destruct (xflag (xpDom p) i && ghost (gPlan g) i j) eqn:E; [split; [done|auto]|]. split; [apply mk_refl|]. intros E1 E2. by rewrite E1, E2 in E. }
      destruct M1 as [M1 M2]. destruct (mk_marked _ _ M1) as (D1 & L1 & _). destruct (IH p1) as [I1 I2].
      { intros ij Hij. apply Hds. by right. }
      { intros h Hh. rewrite L1. by apply Hl. }
      split; [by eapply mk_trans|]. intros a b h Hab Hf Hg Hh. apply elem_of_cons in Hab as [E|Hab].
      + injection E as -> ->. eapply mk_ghost; [exact I1|done|done|by apply M2].
      + apply I2; [done|by rewrite D1|done|done]. }
  destruct (HI dirs p) as [X1 X2].
  { intros ij Hij. unfold dirs in Hij. rewrite !elem_of_cons, elem_of_nil in Hij. destruct Hij as [->|[->|[->|[->|[->|[->|[]]]]]]]; cbn; lia. }
  { done. }
  split; [exact X1|]. intros _ i j h Hi Hj. apply X2. unfold dirs. destruct i as [|[|[|]]]; [| | |lia]; (destruct j as [|[|]]; [| |lia]); rewrite !elem_of_cons; tauto.
Qed.
Lemma markGhosts_mk q : (forall g h, g ∈ gpGroups q -> h ∈ ptrs g -> h ∈ xpLocals (gpX q)) ->
  mk (gpX q) (gpX (gmarkGhosts q)) /\
  forall g, g ∈ gpGroups q -> is_complete g = false -> forall i j h, i < 3 -> j < 2 -> xflag (xpDom (gpX q)) i = true -> ghost (gPlan g) i j = true -> h ∈ ptrs g -> ghost (xPlan (xpMem (gpX (gmarkGhosts q)) h)) i j = true.
Proof.
  intros Hl. unfold gmarkGhosts. gc. revert Hl. generalize (gpX q) as p. induction (gpGroups q) as [|g gs IH]; intros p Hl; cbn [fold_left].
  - split; [apply mk_refl|]. intros g Hg. by apply elem_of_nil in Hg.
  - destruct (mark_incomplete_mk p g) as [M1 M2]; [intros h; apply Hl; by left|]. destruct (mk_marked _ _ M1) as (D1 & L1 & _).
    destruct (IH (mark_incomplete p g)) as [I1 I2]; [intros g' h Hg'; rewrite L1; apply Hl; by right|].
    split; [by eapply mk_trans|]. intros g' Hg' Hc i j h Hi Hj Hf Hgh Hh. apply elem_of_cons in Hg' as [->|Hg'].
    + eapply mk_ghost; [exact I1|done|done|by apply M2].
    + apply (I2 g' Hg' Hc i j h Hi Hj); [by rewrite D1|done|done].
Qed.

(** ** exchangeAtoms *)
Lemma ids_held dims sys : grid_system dims sys -> NoDup (map (fun u => xId u.2) (held sys)) -> forall p, p ∈ sys -> NoDup (ids (xpMem p) (xpLocals p)).
Proof.
  intros HG HN p Hp. apply elem_of_list_lookup in Hp as [r Hr]. destruct (TF_split (fun r => match sys !! r with Some p => locals p | None => [] end) (length sys) r (lookup_lt_Some _ _ _ Hr)) as (X & Y & E).
  assert (EH : held sys = X ++ map (pair r) (match sys !! r with Some p => locals p | None => [] end) ++ Y).
  { rewrite <- E. unfold held, TF. apply flat_map_ext_in. intros k _. by destruct (sys !! k). }
  rewrite EH, Hr, !map_app in HN. apply NoDup_app in HN as (_ & _ & HN). apply NoDup_app in HN as (HN & _). rewrite map_map in HN. unfold locals in HN. rewrite map_map in HN. exact HN.
Qed.
Lemma right_groups G q : rgt G q -> groups_local G q.
Proof.
  intros R. assert (HP : forall g k id, kth q g k id -> forall h, points g k h <-> h ∈ xpLocals (gpX q) /\ xId (xpMem (gpX q) h) = id).
  { intros g k id [Hg Hk] h. unfold points. rewrite (rt_ptrs _ _ _ _ R g Hg), list_lookup_fmap, Hk. cbn. rewrite <- (find_atom_iff _ _ _ _ (rt_ids _ _ _ _ R)). split; [by injection 1|by intros ->]. }
  split; [|split].
  - split; [apply R| |].
    + intros b. rewrite (rt_in _ _ _ _ R). by rewrite locals_touch.
    + intros g Hg. rewrite (rt_ptrs _ _ _ _ R g Hg). by rewrite map_length.
  - intros g k id Hk h Hh. rewrite (HP g k id Hk). tauto.
  - intros g k id Hk h Hh. by apply (HP g k id Hk).
Qed.
Lemma mk_right G q : rgt G q -> rgt G (gmarkGhosts q).
Proof.
  intros R. destruct (markGhosts_mk q) as [[(_ & EL & _ & EM) _ _] _].
  { intros g h Hg Hh. by apply (right_ptr _ _ _ _ _ _ R Hg) in Hh as [? _]. }
  unfold rgt. rewrite EL. refine (right_ext G _ _ _ _ _ R). intros h _. apply EM.
Qed.

Section atoms.
  Context (dims : vec3 Z) (G : list bond) (s : vec3 R) (sys : list gproc) (HG : group_system dims G sys).
  Lemma starts_right r q : map (gstart s) sys !! r = Some q -> rgt G q.
  Proof.
    rewrite list_lookup_fmap. destruct (sys !! r) as [q0|] eqn:E; [|done]. intros X. injection X as <-. assert (Hq : q0 ∈ sys) by (by eapply elem_of_list_lookup_2).
    apply gstart_right; [|exact (proj1 (Forall_forall _ _) (gy_groups _ _ _ HG) q0 Hq)]. apply (ids_held dims (map gpX sys)); [apply HG|apply HG|]. apply elem_of_map. eauto.
  Qed.
  Lemma starts_inv : inv dims dirs (map gpX (map (gstart s) sys)).
  Proof. rewrite map_map. change (fun x => gpX (gstart s x)) with (fun x => xstart s (gpX x)). rewrite <- (map_map gpX (xstart s)). apply start_inv. apply HG. Qed.

  Lemma gexchange_atoms_raw sys' : gexchangeAtoms s sys = Ok sys' -> exists mid xs,
    foldM (fun sys ij => ground ij.1 ij.2 sys) (map (gstart s) sys) dirs = Ok mid /\ sys' = map gmarkGhosts mid /\ exchangeAtoms s (map gpX sys) = Ok xs /\ xs = map gpX mid /\
    Forall2 mk xs (map gpX sys') /\ (forall r q, sys' !! r = Some q -> rgt G q) /\ (forall r q, mid !! r = Some q -> rgt G q) /\ inv dims [] xs /\ ready dims (map gpX sys') /\ map gpCap sys' = map gpCap sys.
  Proof.
    intros H. unfold gexchangeAtoms in H. destruct (foldM _ _ _) as [mid| |] eqn:E; try discriminate. cbn [obind] in H. injection H as <-.
    pose proof (gs_grid _ _ (gy_grid _ _ _ HG)) as Hd.
    destruct (grounds_right dims Hd G (gy_keys _ _ _ HG) dirs [] _ _ eq_refl starts_inv starts_right E) as (R & HX & EC).
    assert (HX' : exchangeAtoms s (map gpX sys) = Ok (map gpX mid)).
    { unfold exchangeAtoms. rewrite <- HX. f_equal. rewrite !map_map. done. }
    destruct (exchange_atoms_raw dims s (map gpX sys) (gy_grid _ _ _ HG) _ HX') as (HI & _).
    assert (HM : forall q, q ∈ mid -> mk (gpX q) (gpX (gmarkGhosts q))).
    { intros q Hq. apply elem_of_list_lookup in Hq as [r Hr]. apply markGhosts_mk. intros g h Hg Hh. by apply (right_ptr _ _ _ _ _ _ (R r q Hr) Hg) in Hh as [? _]. }
    exists mid, (map gpX mid). split; [done|]. split; [done|]. split; [done|]. split; [done|]. split; [|split; [|split; [done|split; [done|split]]]].
    - rewrite map_map. apply Forall2_same_length_lookup. split; [by rewrite !map_length|]. intros r p p'. rewrite !list_lookup_fmap. destruct (mid !! r) as [q|] eqn:Eq; [|done]. intros X1 X2. injection X1 as <-. injection X2 as <-. apply HM. by eapply elem_of_list_lookup_2.
    - intros r q'. rewrite list_lookup_fmap. destruct (mid !! r) as [q|] eqn:Eq; [|done]. intros X. injection X as <-. apply mk_right. by apply (R r).
    - rewrite map_map. assert (HF : forall (P : xproc -> Prop), (forall q, q ∈ mid -> P (gpX (gmarkGhosts q))) -> Forall P (map (fun x => gpX (gmarkGhosts x)) mid)).
      { intros P HP. apply Forall_forall. intros p Hp. apply elem_of_map in Hp as (q & -> & Hq). by apply HP. }
      assert (HI' : forall (P : xproc -> Prop) q, Forall P (map gpX mid) -> q ∈ mid -> P (gpX q)).
      { intros P q HP Hq. apply (proj1 (Forall_forall _ _) HP). apply elem_of_map. eauto. }
      split.
      + rewrite map_map. replace (map _ mid) with (map xpDom (map gpX mid)); [apply HI|]. rewrite map_map. apply map_ext_elem. intros q Hq. destruct (HM q Hq) as [(D & _) _ _]. done.
      + apply HF. intros q Hq. destruct (HM q Hq) as [(_ & E1 & _) (_ & _ & E2 & _) _]. pose proof (HI' wf q (iv_wf _ _ _ HI) Hq) as W. unfold wf. by rewrite E1, E2.
      + apply HF. intros q Hq. destruct (HM q Hq) as [_ _ HS]. apply HS; [apply (HI' wf q (iv_wf _ _ _ HI) Hq)|]. intros i j Hi Hj. rewrite (HI' (SI []) q (iv_send _ _ _ HI) Hq i j Hi Hj). done.
      + apply HF. intros q Hq. destruct (HM q Hq) as [(_ & _ & E1 & _) _ _]. rewrite E1. exact (HI' (fun p => xpGhosts p = []) q (iv_ghost _ _ _ HI) Hq).
    - rewrite map_map. change (map gpCap mid = map gpCap sys). rewrite EC, map_map. done.
  Qed.
End atoms.
