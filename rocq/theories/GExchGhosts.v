(** Proofs about the exchange of groups: when the groups are complete after the exchange of ghosts. *)
From Verif Require Import Base Containers Vec3 PlanModel PlanSpec PlanProofs DomainModel DomainSpec DomainProofs DomainProps SpeciesModel SpeciesProofs SimProofs DistSpec ExchModel ExchSpec ExchProofs ExchAtoms ExchElem ExchStart ExchGhost ExchCopies ExchFinal GExchModel GExchSpec GExchProofs GExchAtoms GExchOrigin.
From Coq Require Import Reals Lra.
Local Open Scope nat_scope.

(** ** Plans of groups *)
Lemma gh_clear p a b i j : a < 3 -> b < 2 -> i < 3 -> j < 2 -> ghost (clearGhost p a b) i j = negb (Nat.eqb i a && Nat.eqb j b) && ghost p i j.
Proof.
  intros. pose proof (step_spec p (ClearGhost a b) Ghost i j) as HH. cbn in HH. rewrite HH by (cbn; done). unfold write.
  destruct i as [|[|[|]]], j as [|[|]], a as [|[|[|]]], b as [|[|]]; try lia; done.
Qed.
Lemma dirs_all i j : i < 3 -> j < 2 -> (i, j) ∈ dirs.
Proof. intros Hi Hj. unfold dirs. destruct i as [|[|[|]]]; [| | |lia]; (destruct j as [|[|]]; [| |lia]); rewrite !elem_of_cons; tauto. Qed.
Lemma dirs_lt ij : ij ∈ dirs -> ij.1 < 3 /\ ij.2 < 2.
Proof. unfold dirs. rewrite !elem_of_cons, elem_of_nil. intros [->|[->|[->|[->|[->|[->|[]]]]]]]; cbn; lia. Qed.
Lemma group_plan_flag D s mem gl g i j : i < 3 -> j < 2 -> xflag D i = true ->
  ghost (group_plan D s mem gl g) i j = if is_complete g then spans D s mem gl i j g else true.
Proof.
  intros Hi Hj Hf. unfold group_plan. set (v := fun ij : nat * nat => if is_complete g then spans D s mem gl ij.1 ij.2 g else true).
  set (stp := fun (p : plan) (ij : nat * nat) => _).
  assert (HS : forall p a b, a < 3 -> b < 2 -> ghost (stp p (a, b)) i j = if decide (a = i /\ b = j) then v (i, j) else ghost p i j).
  { intros p a b Ha Hb. unfold stp, v. cbn [fst snd]. destruct (decide (a = i /\ b = j)) as [[-> ->]|Hne].
    - rewrite Hf. destruct (is_complete g); [destruct (spans _ _ _ _ _ _ _)|]; rewrite ?gh_setG, ?gh_clear by done; by rewrite !Nat.eqb_refl.
    - assert (E : Nat.eqb i a && Nat.eqb j b = false) by (destruct (Nat.eqb_spec i a), (Nat.eqb_spec j b); try done; exfalso; apply Hne; split; congruence).
      destruct (xflag D a); [|done]. destruct (is_complete g); [destruct (spans _ _ _ _ _ _ _)|]; rewrite ?gh_setG, ?gh_clear by done; by rewrite E. }
  assert (HF : forall ds p, (forall ij, ij ∈ ds -> ij.1 < 3 /\ ij.2 < 2) -> ghost (fold_left stp ds p) i j = if decide ((i, j) ∈ ds) then v (i, j) else ghost p i j).
  { induction ds as [|[a b] ds IH]; intros p Hds; cbn [fold_left].
    - by rewrite decide_False by apply not_elem_of_nil.
    - destruct (Hds (a, b) ltac:(by left)) as [Ha Hb]. rewrite IH by (intros ij Hij; apply Hds; by right). rewrite HS by done.
      destruct (decide ((i, j) ∈ ds)) as [Hin|Hin]; [by rewrite decide_True by (by right)|]. destruct (decide (a = i /\ b = j)) as [[-> ->]|Hne]; [by rewrite decide_True by (by left)|].
      rewrite decide_False; [done|]. intros X. apply elem_of_cons in X as [X|X]; [injection X; intros; apply Hne; split; congruence|done]. }
  rewrite HF by exact dirs_lt. rewrite decide_True by (by apply dirs_all). done.
Qed.

(** ** Completeness of groups *)
Lemma omap_full {A} (l : list (option A)) : length (omap (fun o => o) l) = length l -> forall k o, l !! k = Some o -> is_Some o.
Proof.
  assert (HL : forall l : list (option A), length (omap (fun o => o) l) <= length l).
  { clear l. intros l. induction l as [|[x|] l IH]; cbn in *; lia. }
  induction l as [|o l IH]; intros H k o' Hk; [done|]. destruct o as [x|]; cbn in H.
  - destruct k as [|k]; [injection Hk as <-; eauto|]. apply (IH ltac:(lia) k). exact Hk.
  - exfalso. specialize (HL l). cbn in HL. lia.
Qed.
Lemma full_omap {A} (l : list (option A)) : (forall k o, l !! k = Some o -> is_Some o) -> length (omap (fun o => o) l) = length l.
Proof.
  induction l as [|o l IH]; intros H; [done|]. destruct (H 0 o eq_refl) as [x ->]. cbn. f_equal. apply IH. intros k o' Hk. by apply (H (S k)).
Qed.
Lemma complete_points g : length (gPtrs g) = length (gAtoms g) -> is_complete g = true <-> forall k id, gAtoms g !! k = Some id -> exists h, points g k h.
Proof.
  intros El. unfold is_complete, ptrs. rewrite Nat.eqb_eq, <- El. split.
  - intros H k id Hk. destruct (lookup_lt_is_Some_2 (gPtrs g) k) as [o Ho]; [rewrite El; by eapply lookup_lt_Some|]. destruct (omap_full _ H k o Ho) as [h ->]. by exists h.
  - intros H. apply full_omap. intros k o Hk. destruct (lookup_lt_is_Some_2 (gAtoms g) k) as [id Hid]; [rewrite <- El; by eapply lookup_lt_Some|]. destruct (H k id Hid) as [h Hh]. unfold points in Hh. rewrite Hk in Hh. injection Hh as ->. eauto.
Qed.

(** Pointers after findGhosts. *)
Lemma find_ghosts_right G p q g : rgt G q -> g ∈ gpGroups q -> xpLocals p = xpLocals (gpX q) -> (forall h, h ∈ xpLocals p -> xpMem p h = xpMem (gpX q) h) ->
  (forall g', find_ghosts p g = Ok g' -> bond_of g' = bond_of g /\ gPtrs g' = map (find_atom (xpMem p) (xpLocals p ++ xpGhosts p)) (gAtoms g) /\ is_complete g' = true) /\
  ((forall id, id ∈ gAtoms g -> exists h, h ∈ xpLocals p ++ xpGhosts p /\ xId (xpMem p h) = id) -> exists g', find_ghosts p g = Ok g').
Proof.
  intros R Hg EL EM.
  assert (EP : gPtrs g = map (find_atom (xpMem p) (xpLocals p)) (gAtoms g)).
  { rewrite (rt_ptrs _ _ _ _ R g Hg). apply map_ext. intros id. rewrite EL. symmetry. apply find_atom_ext. intros h Hh. by rewrite EM by (by rewrite EL). }
  assert (EZ : zip_with (fun (o : option nat) id => match o with Some h => Some h | None => find_atom (xpMem p) (xpLocals p ++ xpGhosts p) id end) (gPtrs g) (gAtoms g) = map (find_atom (xpMem p) (xpLocals p ++ xpGhosts p)) (gAtoms g)).
  { rewrite EP. generalize (gAtoms g) as l. induction l as [|id l IH]; [done|]. cbn [map zip_with]. rewrite IH. f_equal. rewrite find_atom_app. by destruct (find_atom (xpMem p) (xpLocals p) id). }
  assert (El : length (gPtrs g) = length (gAtoms g)) by (by rewrite EP, map_length).
  assert (EC : is_complete g = true -> gPtrs g = map (find_atom (xpMem p) (xpLocals p ++ xpGhosts p)) (gAtoms g)).
  { intros HC. rewrite EP at 1. apply map_ext_elem. intros id Hid. rewrite find_atom_app. destruct (find_atom (xpMem p) (xpLocals p) id) as [h|] eqn:E; [done|]. exfalso.
    apply elem_of_list_lookup in Hid as [k Hk]. destruct (proj1 (complete_points g El) HC k id Hk) as [h Hh]. unfold points in Hh. rewrite EP, list_lookup_fmap, Hk in Hh. cbn in Hh. congruence. }
  unfold find_ghosts. rewrite EZ. set (g1 := with_ptrs g _). split.
  - intros g'. destruct (is_complete g) eqn:C; [intros X; injection X as <-; auto|]. destruct (is_complete g1) eqn:C1; [|discriminate]. intros X. injection X as <-. done.
  - intros HA. destruct (is_complete g); [eauto|]. replace (is_complete g1) with true; [eauto|]. symmetry. apply complete_points; [unfold g1; gc; by rewrite map_length|].
    intros k id Hk. change (gAtoms g !! k = Some id) in Hk. destruct (HA id) as (h & Hh & Eh); [by eapply elem_of_list_lookup_2|]. unfold points, g1. gc. rewrite list_lookup_fmap, Hk. cbn.
    destruct (find_atom (xpMem p) (xpLocals p ++ xpGhosts p) id) as [h'|] eqn:E; [eauto|]. exfalso. by apply (proj1 (find_atom_None _ _ _) E h Hh).
Qed.

(** ** Images of atoms on other processors *)
Section copies.
  Context (dims : vec3 Z) (Hd : grid_ok dims).
  Notation n := (n_proc dims).
  Notation crd r i := (vget (coords dims r) i).
  Lemma crd_range r i : r < n -> i < 3 -> (0 <= crd r i < vget dims i)%Z.
  Proof. intros Hr Hi. destruct (coords_in dims Hd r Hr) as (H0 & H1 & H2). destruct i as [|[|[|]]]; [done|done|done|lia]. Qed.
  Lemma crd_eq r r' i z : r < n -> r' < n -> i < 3 -> (crd r i = crd r' i + z * vget dims i)%Z -> crd r i = crd r' i.
  Proof. intros Hr Hr' Hi E. pose proof (crd_range r i Hr Hi). pose proof (crd_range r' i Hr' Hi). assert (z = 0%Z) by nia. subst z. lia. Qed.
  Lemma rank_eq r r' : r < n -> r' < n -> (forall i, i < 3 -> crd r i = crd r' i) -> r = r'.
  Proof.
    intros Hr Hr' E. apply (coords_inj dims Hd); [done|done|]. pose proof (E 0 ltac:(lia)) as E0. pose proof (E 1 ltac:(lia)) as E1. pose proof (E 2 ltac:(lia)) as E2.
    destruct (coords dims r), (coords dims r'). cbn in *. congruence.
  Qed.
  (** Along axis [i] the flags of the atom of processor [u.1] reach processor [r]. *)
  Definition reaches (i : nat) (u : nat * xatom) (r : nat) : Prop := exists e z, allowed i e u /\ (crd r i = crd u.1 i + e + z * vget dims i)%Z.
  Lemma copy_present u r : u.1 < n -> r < n -> (forall i, i < 3 -> reaches i u r) -> exists v, v ∈ copies dims u /\ v.1 = r /\ xId v.2 = xId u.2.
  Proof.
    intros Hu Hr HR. destruct (HR 0 ltac:(lia)) as (e0 & z0 & A0 & C0). destruct (HR 1 ltac:(lia)) as (e1 & z1 & A1 & C1). destruct (HR 2 ltac:(lia)) as (e2 & z2 & A2 & C2).
    destruct (copies_in dims Hd (V3 e0 e1 e2) u Hu) as (v & Hv & [M1 (M2 & _ & k & M3) M4]).
    { intros i Hi. destruct i as [|[|[|]]]; [done|done|done|lia]. }
    exists v. split; [done|]. split; [|done]. apply rank_eq; [done|done|]. intros i Hi. specialize (M4 i Hi). rewrite M3, yy_translate in M4 by done. unfold yy in M4.
    assert (E : (crd v.1 i = crd u.1 i + vget (V3 e0 e1 e2) i + vget k i * vget dims i)%Z).
    { apply eq_IZR. rewrite !plus_IZR, mult_IZR. rewrite minus_IZR, mult_IZR in M4. lra. }
    assert (EC : (exists z, crd r i = crd u.1 i + vget (V3 e0 e1 e2) i + z * vget dims i)%Z).
    { destruct i as [|[|[|]]]; [by exists z0|by exists z1|by exists z2|lia]. }
    destruct EC as [z EC]. apply (crd_eq v.1 r i (vget k i - z)); [done|done|done|]. rewrite Z.mul_sub_distr_r. lia.
  Qed.
  Lemma reaches_one i u r : i < 3 -> ~ (1 < vget dims i)%Z -> reaches i u r.
  Proof.
    intros Hi B. exists 0%Z, (crd r i - crd u.1 i)%Z. split; [by left|]. assert (vget dims i = 1)%Z as ->; [|lia]. destruct Hd as (? & ? & ?). destruct i as [|[|[|]]]; cbn in *; lia.
  Qed.
End copies.

(** ** The whole exchange *)
Section whole.
  Context (dims : vec3 Z) (m s : vec3 R) (G : list bond) (sys sys1 : list gproc).
  Context (HG : group_system dims G sys) (HD : displaced dims m (map gpX sys)) (H : gexchangeAtoms s sys = Ok sys1).
  Notation n := (n_proc dims).
  Notation crd r i := (vget (coords dims r) i).
  Let Hd : grid_ok dims := gs_grid _ _ (gy_grid _ _ _ HG).
  Local Open Scope R_scope.

  (** The local atom [v] of the end was the atom [u] of the start. *)
  Record fin (u v : nat * xatom) : Prop := {
    fn_u : u ∈ held (map gpX sys);
    fn_un : (u.1 < n)%nat; fn_vn : (v.1 < n)%nat;
    fn_id : xId v.2 = xId u.2;
    fn_img : exists k, xPos v.2 = translate (xPos u.2) k;
    fn_in : forall i, (i < 3)%nat -> - (vget m i * IZR (vget dims i)) <= yy dims i u.1 (xPos u.2) <= 1 + vget m i * IZR (vget dims i);
    fn_y : forall i, (i < 3)%nat -> let y := yy dims i u.1 (xPos u.2) in yy dims i v.1 (xPos v.2) = (if Rlt_dec y 0 then y + 1 else if Rlt_dec 1 y then y - 1 else y);
    fn_flags : slabs dims m s -> forall i, (i < 3)%nat -> let w := (vget s i * IZR (vget dims i))%R in let y := yy dims i v.1 (xPos v.2) in
      (y < w -> ghost (xPlan v.2) i 0 = true) /\ (1 - w < y -> ghost (xPlan v.2) i 1 = true) }.
  Lemma m_dd i : (i < 3)%nat -> 0 <= vget m i * IZR (vget dims i) <= 1.
  Proof.
    intros Hi. destruct HD as [Hm _]. destruct (Hm i Hi) as [H1 H2]. unfold width in H2. pose proof (dd_pos dims Hd i) as Hdd. split; [apply Rmult_le_pos; lra|].
    replace 1%R with (/ IZR (vget dims i) * IZR (vget dims i))%R by (field; lra). apply Rmult_le_compat_r; lra.
  Qed.
  Lemma fin_of v : v ∈ held (map gpX sys1) -> exists u, fin u v.
  Proof.
    intros Hv. destruct (gexchange_atoms_raw dims G s sys HG sys1 H) as (mid & xs & HF & E1 & HX & Exs & HM & HR & HRm & HI & HRd & _).
    assert (HV : exists a, (v.1, a) ∈ held xs /\ more_ghosts a v.2).
    { unfold held in Hv. apply elem_of_flat_map in Hv as (r & Hr & Hv). destruct (map gpX sys1 !! r) as [p|] eqn:Ep; [|by apply elem_of_nil in Hv]. apply elem_of_map in Hv as (b & -> & Hb). cbn [fst snd].
      unfold locals in Hb. apply elem_of_map in Hb as (h & -> & Hh). destruct (Forall2_lookup_r _ _ _ _ _ HM Ep) as (p0 & Hp0 & [(_ & EL & _ & EM) _ _]). exists (xpMem p0 h). split; [|apply EM].
      unfold held. apply elem_of_flat_map. exists r. split; [apply elem_of_seq; apply lookup_lt_Some in Hp0; lia|]. rewrite Hp0. apply elem_of_map. exists (xpMem p0 h). split; [done|]. unfold locals. apply elem_of_map. exists h. split; [done|congruence]. }
    destruct HV as (a & Ha & (A1 & A2 & A3 & _ & _ & A6)). pose proof (gy_grid _ _ _ HG) as HGr.
    destruct (settled_atom dims Hd m s (map gpX sys) xs HGr HD HX _ Ha) as (_ & _ & Hrn & _ & HY & HFl). cbn [fst snd] in Hrn, HY, HFl.
    destruct (exchange_atoms_pairs dims s _ HGr xs HX) as (l & HP & HF2). rewrite <- HP in Ha. apply elem_of_list_lookup in Ha as [x Hx]. destruct (Forall2_lookup_r _ _ _ _ _ HF2 Hx) as (u & Hu & E). apply elem_of_list_lookup_2 in Hu.
    destruct (held_elem dims _ HGr u Hu) as (p & Hp & Hps & Hloc & Hr & Hdom). destruct (M_st dims s _ HGr u (xpDom p) Hu p Hp eq_refl) as (M1 & M2 & M3 & M4). rewrite E in M1, M2, M3, M4. cbn [fst snd nf xPos xPlan] in M1, M2, M4.
    destruct M3 as (M3 & _ & _ & k & M3'). cbn [fst snd nf xPos xId] in M3, M3'.
    exists u. split; [done|done|done|congruence|exists k; congruence| | |].
    - exact (proj1 (within_yy dims Hd _ _ _ _ Hdom) (proj2 HD p u.2 Hps Hloc)).
    - intros i Hi. rewrite A3. exact (M4 i Hi).
    - intros Hs i Hi w y. destruct (HFl Hs i Hi) as [F0 F1]. unfold y. rewrite A3. split; intros Hlt; apply A6; [done|lia|by apply F0|done|lia|by apply F1].
  Qed.
  Lemma held_unique u u' : u ∈ held (map gpX sys) -> u' ∈ held (map gpX sys) -> xId u.2 = xId u'.2 -> u = u'.
  Proof.
    intros H1 H2 E. apply elem_of_list_lookup in H1 as [x Hx], H2 as [y Hy]. assert (x = y); [|congruence].
    apply (NoDup_lookup _ _ _ (xId u.2) (gy_ids _ _ _ HG)); rewrite list_lookup_fmap; [by rewrite Hx|by rewrite Hy, E].
  Qed.
  Lemma fin_in u v : fin u v -> forall i, (i < 3)%nat -> 0 <= yy dims i v.1 (xPos v.2) <= 1.
  Proof. intros F i Hi. rewrite (fn_y _ _ F i Hi). pose proof (fn_in _ _ F i Hi). pose proof (m_dd i Hi). destruct (Rlt_dec _ 0); [lra|]. destruct (Rlt_dec 1 _); lra. Qed.

  (** The pointers and groups after exchangeGhosts, if the atoms of all groups are there. *)
  Definition present (ps : list xproc) : Prop := forall r q g id p, sys1 !! r = Some q -> g ∈ gpGroups q -> id ∈ gAtoms g -> ps !! r = Some p -> exists h, h ∈ xpLocals p ++ xpGhosts p /\ xId (xpMem p h) = id.
  Lemma ghosts_locals ps : exchangeGhosts (map gpX sys1) = Ok ps -> length ps = length sys1 /\ forall r q p, sys1 !! r = Some q -> ps !! r = Some p ->
    live p /\ xpLocals p = xpLocals (gpX q) /\ xpDom p = xpDom (gpX q) /\ forall h, h ∈ xpLocals p -> xpMem p h = xpMem (gpX q) h.
  Proof.
    intros HE. destruct (gexchange_atoms_raw dims G s sys HG sys1 H) as (mid & xs & HF & E1 & HX & Exs & HM & HR & HRm & HI & HRd & _).
    destruct (exchange_ghosts_ready dims Hd _ ps HRd HE) as (GI & _ & ED & EL & _ & EP). assert (Hlen : length ps = length sys1) by (apply (f_equal length) in ED; by rewrite !map_length in ED).
    split; [done|]. intros r q p Hq Hp. split; [exact (proj1 (Forall_forall _ _) (gi_live _ _ GI) p (elem_of_list_lookup_2 _ _ _ Hp))|].
    apply (f_equal (fun l => l !! r)) in ED. apply (f_equal (fun l => l !! r)) in EL. apply (f_equal (fun l => l !! r)) in EP. rewrite !list_lookup_fmap, Hq, Hp in ED. rewrite !list_lookup_fmap, Hq, Hp in EL. rewrite !list_lookup_fmap, Hq, Hp in EP. cbn in ED, EL, EP. injection ED as ED. injection EL as EL. injection EP as EP. split; [done|]. split; [done|].
    intros h Hh. unfold locals in EL. rewrite EP in EL. rewrite EP in Hh. apply elem_of_list_lookup in Hh as [x Hx]. apply (f_equal (fun l => l !! x)) in EL. rewrite !list_lookup_fmap, Hx in EL. cbn in EL. by injection EL.
  Qed.
  Lemma right1 r q : sys1 !! r = Some q -> rgt G q.
  Proof. destruct (gexchange_atoms_raw dims G s sys HG sys1 H) as (mid & xs & _ & _ & _ & _ & _ & HR & _). apply HR. Qed.
  Lemma find_complete ps : exchangeGhosts (map gpX sys1) = Ok ps -> present ps -> exists sys2, gexchangeGhosts sys1 = Ok sys2.
  Proof.
    intros HE HP. destruct (ghosts_locals ps HE) as [Hlen HL]. unfold gexchangeGhosts. rewrite HE. cbn [obind]. apply mapO_total. intros r [p q] Hz. apply lookup_zip_with_Some in Hz as (p' & q' & E & Hp & Hq). injection E as <- <-. cbn [fst snd].
    destruct (HL r q p Hq Hp) as (_ & EL & _ & EM).
    destruct (mapO_total (find_ghosts p) (gpGroups q)) as [gs Hgs].
    { intros k g Hg. apply elem_of_list_lookup_2 in Hg. apply (find_ghosts_right G p q g (right1 r q Hq) Hg EL EM). intros id Hid. exact (HP r q g id p Hq Hg Hid Hp). }
    rewrite Hgs. cbn [obind]. eauto.
  Qed.
  Lemma find_result sys2 : gexchangeGhosts sys1 = Ok sys2 -> exchangeGhosts (map gpX sys1) = Ok (map gpX sys2) /\ Forall (fun q => groups_ok G q /\ points_all q) sys2.
  Proof.
    intros H2. unfold gexchangeGhosts in H2. destruct (exchangeGhosts (map gpX sys1)) as [ps| |] eqn:HE; try discriminate. cbn [obind] in H2. apply mapO_Ok in H2.
    destruct (ghosts_locals ps HE) as [Hlen HL].
    assert (HQ : forall r q2, sys2 !! r = Some q2 -> exists q, sys1 !! r = Some q /\ ps !! r = Some (gpX q2) /\ mapO (find_ghosts (gpX q2)) (gpGroups q) = Ok (gpGroups q2)).
    { intros r q2 Hq2. destruct (Forall2_lookup_r _ _ _ _ _ H2 Hq2) as ([p q] & Hz & E). apply lookup_zip_with_Some in Hz as (p' & q' & X & Hp & Hq). injection X as <- <-. cbn [fst snd] in E.
      destruct (mapO (find_ghosts p) (gpGroups q)) as [gs| |] eqn:EG; try discriminate. cbn [obind] in E. injection E as <-. gc. eauto. }
    split.
    - f_equal. apply list_eq. intros r. rewrite list_lookup_fmap. pose proof (Forall2_length _ _ _ H2) as E2. rewrite zip_with_length in E2. destruct (sys2 !! r) as [q2|] eqn:E.
      + destruct (HQ r q2 E) as (q & _ & Hp & _). done.
      + apply lookup_ge_None in E. apply lookup_ge_None. lia.
    - apply Forall_forall. intros q2 Hq2. apply elem_of_list_lookup in Hq2 as [r Hr]. destruct (HQ r q2 Hr) as (q & Hq & Hp & HF). destruct (HL r q _ Hq Hp) as (LV & EL & _ & EM). set (p := gpX q2) in *.
      pose proof (right1 r q Hq) as R. apply mapO_Ok in HF.
      assert (HX : forall g2, g2 ∈ gpGroups q2 -> exists g, g ∈ gpGroups q /\ bond_of g2 = bond_of g /\ gPtrs g2 = map (find_atom (xpMem p) (xpLocals p ++ xpGhosts p)) (gAtoms g2) /\ is_complete g2 = true).
      { intros g2 Hg2. apply elem_of_list_lookup in Hg2 as [k Hk]. destruct (Forall2_lookup_r _ _ _ _ _ HF Hk) as (g & Hg & E). apply elem_of_list_lookup_2 in Hg.
        destruct (proj1 (find_ghosts_right G p q g R Hg EL EM) g2 E) as (E1 & E2 & E3). exists g. split; [done|]. split; [done|]. split; [|done]. rewrite E2. f_equal. exact (f_equal bAtoms (eq_sym E1)). }
      assert (EB : map bond_of (gpGroups q2) = map bond_of (gpGroups q)).
      { apply list_eq. intros k. rewrite !list_lookup_fmap. destruct (gpGroups q2 !! k) as [g2|] eqn:Ek.
        - destruct (Forall2_lookup_r _ _ _ _ _ HF Ek) as (g & Hg & E). rewrite Hg. cbn. f_equal. by destruct (proj1 (find_ghosts_right G p q g R (elem_of_list_lookup_2 _ _ _ Hg) EL EM) g2 E) as (E1 & _).
        - apply lookup_ge_None in Ek. pose proof (Forall2_length _ _ _ HF). rewrite (proj2 (lookup_ge_None (gpGroups q) k)) by lia. done. }
      assert (HIds : NoDup (ids (xpMem p) (xpLocals p))).
      { rewrite EL. rewrite (ids_ext (xpMem (gpX q)) (xpMem p)); [apply R|]. intros h Hh. by rewrite EM by (by rewrite EL). }
      assert (HPt : forall g k id h, kth q2 g k id -> points g k h <-> find_atom (xpMem p) (xpLocals p ++ xpGhosts p) id = Some h).
      { intros g k id h [Hg Hk]. destruct (HX g Hg) as (g0 & _ & _ & EP & _). unfold points. rewrite EP, list_lookup_fmap, Hk. cbn. split; [by injection 1|by intros ->]. }
      split; [split; [|split; [|split]]|].
      + split.
        * change (NoDup (map (fun g => bkey (bond_of g)) (gpGroups q2))). rewrite <- (map_map bond_of bkey), EB, map_map. apply R.
        * intros b. rewrite EB, (rt_in _ _ _ _ R), locals_touch. fold p. unfold touches. rewrite EL. split; intros [X (h & Hh & E)]; (split; [done|]); exists h; (split; [done|]); by rewrite ?EM, <- ?EM in * by (by rewrite EL).
        * intros g Hg. destruct (HX g Hg) as (g0 & _ & _ & EP & _). by rewrite EP, map_length.
      + intros g k id Hk h Hh. fold p in Hh |- *. rewrite (HPt g k id h Hk). rewrite find_atom_app. split.
        * destruct (find_atom (xpMem p) (xpLocals p) id) as [h'|] eqn:E; [intros X; injection X as ->; by apply find_atom_Some in E as [_ ?]|]. intros X. exfalso. apply find_atom_Some in X as [X _].
          pose proof (lv_nodup _ LV) as ND. apply NoDup_app in ND as (_ & ND & _). by apply (ND h).
        * intros E. rewrite (proj2 (find_atom_iff _ _ _ h HIds)); [done|done].
      + intros g k id Hk h Hh. fold p. apply (HPt g k id h Hk) in Hh. apply find_atom_Some in Hh as [X E]. apply elem_of_app in X as [X|X]; [by left|by right].
      + fold p. intros h Hh Hh'. pose proof (lv_nodup _ LV) as ND. apply NoDup_app in ND as (_ & ND & _). by apply (ND h).
      + intros g k id Hk. destruct (HX g (proj1 Hk)) as (g0 & _ & _ & EP & EC). apply (proj1 (complete_points g ltac:(by rewrite EP, map_length)) EC k id (proj2 Hk)).
  Qed.

  (** Atoms of a group are present on the processor of another one if the flags reach there. *)
  Lemma reach_present ps : exchangeGhosts (map gpX sys1) = Ok ps -> populated G (map gpX sys) ->
    (forall b u v, b ∈ G -> u ∈ held (map gpX sys1) -> v ∈ held (map gpX sys1) -> xId u.2 ∈ bAtoms b -> xId v.2 ∈ bAtoms b -> xId u.2 <> xId v.2 -> forall i, (i < 3)%nat -> (1 < vget dims i)%Z -> reaches dims i (u.1, ng u.2) v.1) ->
    present ps.
  Proof.
    intros HE HPop HRe r q g id p Hq Hg Hid Hp. destruct (ghosts_locals ps HE) as [Hlen HL]. destruct (HL r q p Hq Hp) as (LV & EL & _ & EM). pose proof (right1 r q Hq) as R.
    destruct (proj1 (rt_in _ _ _ _ R _) (elem_bond _ _ Hg)) as (Hb & h0 & Hh0 & Hid0).
    destruct (decide (xId (xpMem (gpX q) h0) = id)) as [Ei|Hne].
    { exists h0. split; [apply elem_of_app; left; by rewrite EL|]. rewrite EM by (by rewrite EL). done. }
    destruct (gexchange_atoms_raw dims G s sys HG sys1 H) as (mid & xs & HF & E1 & HX & Exs & HM & HR & HRm & HI & HRd & _).
    destruct (exchange_ghosts_ready dims Hd _ ps HRd HE) as (GI & HT & ED & _). pose proof (ginv_len _ _ GI) as Hn. assert (Hrn : (r < n)%nat) by (rewrite <- Hn; by eapply lookup_lt_Some).
    (* where the atom is *)
    assert (HA : exists u, u ∈ held (map gpX sys1) /\ xId u.2 = id).
    { destruct (HPop _ id Hb Hid) as (u0 & Hu0 & E0). destruct (exchange_atoms_pairs dims s _ (gy_grid _ _ _ HG) xs HX) as (l & HPm & HF2). apply elem_of_list_lookup in Hu0 as [x Hx].
      destruct (Forall2_lookup_l _ _ _ _ _ HF2 Hx) as (v & Hv & E). apply elem_of_list_lookup_2 in Hv. rewrite HPm in Hv. apply elem_of_list_lookup_2 in Hx.
      destruct (held_elem dims _ (gy_grid _ _ _ HG) u0 Hx) as (p0 & Hp0 & _). destruct (M_st dims s _ (gy_grid _ _ _ HG) u0 (xpDom p0) Hx p0 Hp0 eq_refl) as (_ & _ & (M3 & _) & _). rewrite E in M3. cbn in M3.
      unfold held in Hv. apply elem_of_flat_map in Hv as (r' & Hr' & Hv). destruct (xs !! r') as [px|] eqn:Epx; [|by apply elem_of_nil in Hv]. apply elem_of_map in Hv as (b & -> & Hbb). cbn [snd] in M3.
      destruct (Forall2_lookup_l _ _ _ _ _ HM Epx) as (p1 & Hp1 & [(_ & EL1 & _ & EM1) _ _]). unfold locals in Hbb. apply elem_of_map in Hbb as (h & -> & Hh). exists (r', xpMem p1 h). split.
      - unfold held. apply elem_of_flat_map. exists r'. split; [apply elem_of_seq; apply lookup_lt_Some in Hp1; lia|]. rewrite Hp1. apply elem_of_map. exists (xpMem p1 h). split; [done|]. unfold locals. apply elem_of_map. exists h. split; [done|congruence].
      - cbn [snd]. destruct (EM1 h) as (X & _). congruence. }
    destruct HA as (u & Hu & Eu).
    assert (Hv : (r, xpMem (gpX q) h0) ∈ held (map gpX sys1)).
    { unfold held. apply elem_of_flat_map. exists r. split; [apply elem_of_seq; rewrite map_length; apply lookup_lt_Some in Hq; lia|]. rewrite list_lookup_fmap, Hq. cbn. apply elem_of_map. exists (xpMem (gpX q) h0). split; [done|]. unfold locals. apply elem_of_map. eauto. }
    destruct (fin_of u Hu) as [u0 Fu].
    destruct (copy_present dims Hd (u.1, ng u.2) r (fn_vn _ _ Fu) Hrn) as (w & Hw & Ew & Iw).
    { intros i Hi. destruct (decide (1 < vget dims i)%Z) as [B|B]; [|by apply reaches_one]. refine (HRe (bond_of g) u (r, xpMem (gpX q) h0) Hb Hu Hv _ Hid0 _ i Hi B); [by rewrite Eu|rewrite Eu; cbn [fst snd]; congruence]. }
    assert (HwT : w ∈ TF (atr LG ps) n).
    { rewrite HT. apply elem_of_flat_map. exists (u.1, ng u.2). split; [|done]. apply elem_of_map. eauto. }
    unfold TF in HwT. apply elem_of_flat_map in HwT as (r' & _ & HwT). apply elem_of_map in HwT as (b & E & Hbb). subst w. cbn [fst snd] in Ew, Iw. subst r'. unfold atr in Hbb. rewrite Hp in Hbb.
    unfold LG in Hbb. apply elem_of_map in Hbb as (h & -> & Hh). exists h. split; [done|]. cbn in Iw. congruence.
  Qed.
End whole.
