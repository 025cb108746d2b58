(** Theorems about Exchanger::exchange: atoms go to the processors that own their positions (C25), every processor gets the images near its domain (C26). *)
From Verif Require Import Base Containers Vec3 PlanModel OrthoModel BoxSpec OrthoSpec OrthoProofs MonoModel MonoSpec MonoProofs DomainModel DomainSpec DomainProofs DomainProps SpeciesModel SpeciesProofs SimProofs DistSpec ExchModel ExchSpec ExchProofs ExchAtoms ExchElem ExchStart ExchGhost ExchCopies ExchFinal.
From Coq Require Import Reals Lra.
Local Open Scope nat_scope.

(** ** Atoms *)
Theorem atoms_exchanged dims m s sys sys' :
  grid_system dims sys -> displaced dims m sys -> exchangeAtoms s sys = Ok sys' ->
  map xpDom sys' = map xpDom sys /\ Forall (fun p => ghosts p = []) sys' /\
  exists l, l ≡ₚ held sys' /\
    Forall2 (fun u v => same_atom u.2 v.2 /\ exists p, sys' !! v.1 = Some p /\ in_closed (xpDom p) (xPos v.2)) (held sys) l.
Proof.
  intros HG HD H. pose proof (gs_grid _ _ HG) as Hd. destruct (exchange_atoms_raw dims s sys HG sys' H) as (HI & _ & ED & _). split; [done|]. split.
  { eapply Forall_impl; [exact (iv_ghost _ _ _ HI)|]. cbn. intros p E. unfold ghosts. by rewrite E. }
  destruct (exchange_atoms_pairs dims s sys HG sys' H) as (l & HP & HF). exists l. split; [done|].
  apply Forall2_same_length_lookup. split; [by apply Forall2_length in HF|]. intros x u v Hu Hv.
  pose proof (Forall2_lookup_lr _ _ _ _ _ _ HF Hu Hv) as E. cbn beta in E. apply elem_of_list_lookup_2 in Hu, Hv. rewrite HP in Hv.
  destruct (held_elem dims sys HG u Hu) as (p & Hp & _). destruct (M_st dims s sys HG u (xpDom p) Hu p Hp eq_refl) as (_ & _ & M3 & _). rewrite E in M3. split; [exact M3|].
  destruct (settled_atom dims Hd m s sys sys' HG HD H v Hv) as (u' & _ & Hr & _ & HC & _).
  pose proof (inv_len _ _ _ HI) as HL. destruct (lookup_lt_is_Some_2 sys' v.1) as [q Hq]; [lia|]. exists q. split; [done|].
  apply (closed_yy dims Hd v.1); [|done]. destruct (iv_dom _ _ _ HI) as [_ HDo]. apply HDo. rewrite list_lookup_fmap, Hq. done.
Qed.

(** The function completes if no two atoms have the same id and every processor has room for all atoms. *)
Theorem exchange_atoms_completes dims s sys :
  grid_system dims sys -> NoDup (map (fun u => xId u.2) (held sys)) -> Forall (fun p => length (held sys) <= xpCap p) sys ->
  exists sys', exchangeAtoms s sys = Ok sys'.
Proof.
  intros HG Hn Hc. pose proof (gs_grid _ _ HG) as Hd. unfold exchangeAtoms.
  apply (rounds_ok dims Hd dirs [] (map (xstart s) sys) eq_refl (start_inv dims s sys HG)).
  - rewrite (T_start s sys), map_map. match goal with |- NoDup ?x => replace x with (map (fun u : nat * xatom => xId u.2) (held sys)) end; [done|].
    apply map_ext. intros u. unfold uid, st. by destruct (sys !! u.1).
  - rewrite (T_start s sys), map_length, map_map. cbn [xstart xpCap]. rewrite Forall_map. exact Hc.
Qed.
Theorem exchange_completes dims s sys :
  grid_system dims sys -> NoDup (map (fun u => xId u.2) (held sys)) ->
  Forall (fun p => length (held sys) <= xpCap p /\ 27 * length (held sys) <= xpGCap p) sys -> exists sys', exchange_all s sys = Ok sys'.
Proof.
  intros HG Hn Hc. pose proof (gs_grid _ _ HG) as Hd. destruct (exchange_atoms_completes dims s sys HG Hn) as [s1 H].
  { eapply Forall_impl; [exact Hc|]. cbn. tauto. }
  unfold exchange_all. rewrite H. cbn [obind]. destruct (exchange_atoms_raw dims s sys HG s1 H) as (HI & _ & _ & _ & EG).
  apply (exchange_ghosts_ok dims Hd s1 HI). rewrite EG. rewrite Forall_map.
  destruct (exchange_atoms_pairs dims s sys HG s1 H) as (l & HP & HF). assert (E : length (held s1) = length (held sys)) by (rewrite <- HP; symmetry; exact (Forall2_length _ _ _ HF)). rewrite E. eapply Forall_impl; [exact Hc|]. cbn. tauto.
Qed.

(** ** Ghosts *)
Section ghosts.
  Context (dims : vec3 Z) (m s : vec3 R) (sys sys' : list xproc).
  Context (HG : grid_system dims sys) (HD : displaced dims m sys) (H : exchange_all s sys = Ok sys').

  Lemma all_split : exists s1, exchangeAtoms s sys = Ok s1 /\ exchangeGhosts s1 = Ok sys' /\ inv dims [] s1 /\ ginv dims sys' /\
    TF (atr LG sys') (n_proc dims) ≡ₚ flat_map (copies dims) (map (fun u => (u.1, ng u.2)) (held s1)) /\ held sys' = held s1 /\ map xpDom sys' = map xpDom s1.
  Proof.
    unfold exchange_all in H. destruct (exchangeAtoms s sys) as [s1| |] eqn:H1; try discriminate. cbn [obind] in H. exists s1.
    destruct (exchange_atoms_raw dims s sys HG s1 H1) as (HI & _). destruct (exchange_ghosts_raw dims (gs_grid _ _ HG) s1 sys' HI H) as (G & HT & ED & _ & EH). done.
  Qed.
  Lemma LG_elem q p b : sys' !! q = Some p -> b ∈ LG p <-> (q, b) ∈ TF (atr LG sys') (n_proc dims).
  Proof.
    intros Hq. destruct all_split as (s1 & _ & _ & _ & G & _). pose proof (ginv_len _ _ G) as HL. unfold TF. rewrite elem_of_flat_map. split.
    - intros Hb. exists q. split; [apply elem_of_seq; apply lookup_lt_Some in Hq; lia|]. apply elem_of_map. exists b. split; [done|]. unfold atr. by rewrite Hq.
    - intros (r & _ & Hb). apply elem_of_map in Hb as (c & E & Hc). injection E as -> ->. unfold atr in Hc. by rewrite Hq in Hc.
  Qed.
  Lemma has_LG p y i t : (exists b, b ∈ locals p ++ ghosts p /\ xId b = i /\ xType b = t /\ xPos b = y) <-> (exists b, b ∈ LG p /\ xId b = i /\ xType b = t /\ xPos b = y).
  Proof.
    unfold LG, locals, ghosts. rewrite <- map_app. split.
    - intros (b & Hb & E). apply elem_of_map in Hb as (h & -> & Hh). exists (ng (xpMem p h)). split; [|exact E]. apply elem_of_map. eauto.
    - intros (b & Hb & E). apply elem_of_map in Hb as (h & -> & Hh). exists (xpMem p h). split; [|exact E]. apply elem_of_map. eauto.
  Qed.

  (** Every processor has exactly the images, atoms themselves included, that are less than one slab outside of its domain. *)
  Theorem ghosts_complete q p : slabs dims m s -> sys' !! q = Some p -> forall i t y,
    (exists b, b ∈ locals p ++ ghosts p /\ xId b = i /\ xType b = t /\ xPos b = y) <->
    (exists u k, u ∈ held sys' /\ xId u.2 = i /\ xType u.2 = t /\ y = translate (xPos u.2) k /\ near (xpDom p) s y).
  Proof.
    intros Hs Hq i t y. pose proof (gs_grid _ _ HG) as Hd. destruct all_split as (s1 & H1 & H2 & HI & G & HT & EH & ED). rewrite has_LG. rewrite EH.
    pose proof (ginv_len _ _ G) as HL. assert (Hqn : q < n_proc dims) by (apply lookup_lt_Some in Hq; lia).
    assert (HDq : domain_of dims (Z.of_nat q) (xpDom p)). { destruct (gi_dom _ _ G) as [_ HDo]. apply HDo. by rewrite list_lookup_fmap, Hq. }
    set (w := fun i => (vget s i * IZR (vget dims i))%R).
    assert (HX : forall u, u ∈ held s1 -> (u.1 < n_proc dims) /\ (forall i, i < 3 -> (0 <= yy dims i u.1 (xPos u.2) <= 1 /\ 0 < w i <= 1)%R) /\
      (forall i, i < 3 -> ((gh i 0 u.2 = true <-> yy dims i u.1 (xPos u.2) < w i) /\ (gh i 1 u.2 = true <-> 1 - w i < yy dims i u.1 (xPos u.2)))%R)).
    { intros u Hu. destruct (settled_atom dims Hd m s sys s1 HG HD H1 u Hu) as (u' & _ & Hr & _ & HC & HF). split; [done|]. split; [|exact (HF Hs)].
      intros a Ha. split; [by apply HC|]. destruct (Hs a Ha) as [S1 S2]. destruct HD as [Hm _]. destruct (Hm a Ha) as [M1 _]. pose proof (dd_pos dims Hd a) as Hdd. unfold w, width in *.
      split; [apply Rmult_lt_0_compat; lra|]. replace 1%R with (/ IZR (vget dims a) * IZR (vget dims a))%R by (field; lra). apply Rmult_le_compat_r; lra. }
    split.
    - intros (b & Hb & <- & <- & <-). apply (LG_elem q p b Hq) in Hb. rewrite HT in Hb. apply elem_of_flat_map in Hb as (z & Hz & Hb). apply elem_of_map in Hz as (u & -> & Hu).
      destruct (HX u Hu) as (X1 & X2 & X3). destruct (copies_inv dims Hd (u.1, ng u.2) _ X1 Hb) as (e & _ & [_ (I1 & I2 & k & I3) _]). exists u, k. split; [done|]. split; [done|]. split; [done|]. split; [done|].
      apply (near_yy dims Hd q _ _ _ HDq). cbn [snd ng xPos] in I3. rewrite I3.
      apply (proj1 (copies_iff dims Hd w (u.1, ng u.2) X1 X2 X3 q k Hqn)). exists (q, b). split; [done|]. split; [done|]. split; [|done]. split; [done|]. split; [done|]. by exists k.
    - intros (u & k & Hu & <- & <- & -> & HN). destruct (HX u Hu) as (X1 & X2 & X3). pose proof (proj1 (near_yy dims Hd q _ _ _ HDq) HN) as HN'.
      destruct (proj2 (copies_iff dims Hd w (u.1, ng u.2) X1 X2 X3 q k Hqn) HN') as ([r b] & Hv & Ev & (I1 & I2 & _) & E). cbn [fst snd] in Ev. subst r.
      exists b. split; [|done]. apply (LG_elem q p b Hq). rewrite HT. apply elem_of_flat_map. exists (u.1, ng u.2). split; [|done]. apply elem_of_map. eauto.
  Qed.

  (** The same in terms of the atoms before the exchange. *)
  Theorem ghosts_complete_before q p : slabs dims m s -> sys' !! q = Some p -> forall i t y,
    (exists b, b ∈ locals p ++ ghosts p /\ xId b = i /\ xType b = t /\ xPos b = y) <->
    (exists u k, u ∈ held sys /\ xId u.2 = i /\ xType u.2 = t /\ y = translate (xPos u.2) k /\ near (xpDom p) s y).
  Proof.
    intros Hs Hq i t y. rewrite (ghosts_complete q p Hs Hq). destruct all_split as (s1 & H1 & _ & _ & _ & _ & EH & _). rewrite EH.
    destruct (atoms_exchanged dims m s sys s1 HG HD H1) as (_ & _ & l & HP & HF).
    assert (HT : forall x k y, y = translate x k <-> x = translate y (V3 (- vx k) (- vy k) (- vz k))%Z).
    { intros x k y'. split; intros ->; rewrite translate_translate; [rewrite <- (translate_0 x) at 1|rewrite <- (translate_0 y') at 1]; f_equal; cbn [vx vy vz]; f_equal; lia. }
    split.
    - intros (v & k & Hv & Ei & Et & E & HN). rewrite <- HP in Hv. apply elem_of_list_lookup in Hv as [x Hx]. destruct (Forall2_lookup_r _ _ _ _ _ HF Hx) as (u & Hu & (S1 & S2 & _ & k' & S4) & _).
      apply elem_of_list_lookup_2 in Hu. rewrite S4, translate_translate in E. eexists u, _. split; [done|]. split; [congruence|]. split; [congruence|]. split; [exact E|done].
    - intros (u & k & Hu & Ei & Et & E & HN). apply elem_of_list_lookup in Hu as [x Hx]. destruct (Forall2_lookup_l _ _ _ _ _ HF Hx) as (v & Hv & (S1 & S2 & _ & k' & S4) & _).
      apply elem_of_list_lookup_2 in Hv. rewrite HP in Hv. apply HT in S4. rewrite S4, translate_translate in E. eexists v, _. split; [done|]. split; [congruence|]. split; [congruence|]. split; [exact E|done].
  Qed.

  (** No processor has the same image twice. *)
  Theorem ghosts_once q p : NoDup (map (fun u => xId u.2) (held sys)) -> sys' !! q = Some p -> NoDup (map (fun b => (xId b, xPos b)) (locals p ++ ghosts p)).
  Proof.
    intros Hn Hq. pose proof (gs_grid _ _ HG) as Hd. destruct all_split as (s1 & H1 & H2 & HI & G & HT & EH & ED).
    pose proof (ginv_len _ _ G) as HL. assert (Hqn : q < n_proc dims) by (apply lookup_lt_Some in Hq; lia).
    assert (Hn1 : NoDup (map (fun u => xId u.2) (held s1))).
    { destruct (exchange_atoms_pairs dims s sys HG s1 H1) as (l & HP & HF). rewrite <- HP. replace (map _ l) with (map (fun u : nat * xatom => xId u.2) (held sys)); [done|].
      apply list_eq. intros x. rewrite !list_lookup_fmap. destruct (held sys !! x) as [u|] eqn:Hu.
      - destruct (Forall2_lookup_l _ _ _ _ _ HF Hu) as (v & Hv & E). rewrite Hv. cbn. f_equal. apply elem_of_list_lookup_2 in Hu.
        destruct (held_elem dims sys HG u Hu) as (pp & Hp & _). destruct (M_st dims s sys HG u (xpDom pp) Hu pp Hp eq_refl) as (_ & _ & (M3 & _) & _). rewrite E in M3. symmetry. exact M3.
      - assert (E : l !! x = None). { apply lookup_ge_None. rewrite <- (Forall2_length _ _ _ HF). by apply lookup_ge_None. } by rewrite E. }
    assert (HN : NoDup (map (fun v : nat * xatom => (xId v.2, (v.1, xPos v.2))) (TF (atr LG sys') (n_proc dims)))).
    { rewrite HT. apply (NoDup_flat_key (copies dims) (fun u => xId u.2) (fun v => xId v.2) (fun v => (v.1, xPos v.2))).
      - rewrite map_map. exact Hn1.
      - intros x v Hx Hv. apply elem_of_map in Hx as (u & -> & Hu). destruct (settled_atom dims Hd m s sys s1 HG HD H1 u Hu) as (u' & _ & Hr & _).
        destruct (copies_inv dims Hd (u.1, ng u.2) v Hr Hv) as (e & _ & [_ (I1 & _) _]). exact I1.
      - intros x Hx. apply elem_of_map in Hx as (u & -> & Hu). destruct (settled_atom dims Hd m s sys s1 HG HD H1 u Hu) as (u' & _ & Hr & _). by apply copies_once. }
    destruct (TF_split (atr LG sys') (n_proc dims) q Hqn) as (X & Y & E). rewrite E in HN. rewrite !map_app in HN. apply NoDup_app in HN as (_ & _ & HN). apply NoDup_app in HN as (HN & _).
    unfold atr in HN. rewrite Hq in HN. rewrite map_map in HN. cbn [fst snd] in HN. unfold LG in HN. rewrite map_map in HN. unfold locals, ghosts. rewrite <- map_app, map_map.
    cbn [ng xId xPos] in HN.
    match goal with |- NoDup ?x => apply (NoDup_fmap_1 (fun c : Z * vec3 R => (c.1, (q, c.2))) x) end. match type of HN with NoDup ?x => match goal with |- NoDup ?y => replace y with x end end; [done|].
    change (@fmap list _ _ _) with (@map (Z * vec3 R) (Z * (nat * vec3 R))). rewrite map_map. done.
  Qed.

  (** *** In terms of distances *)
  (** [C] converts generalized to Cartesian coordinates, and the planes of a coordinate are spaced by [L]. *)
  Definition spaced (C : vec3 R -> vec3 R) (L : vec3 R) : Prop :=
    positive3 L /\ forall g h i, i < 3 -> ((vget g i - vget h i) * vget L i * ((vget g i - vget h i) * vget L i) <= normSq (vsub (C g) (C h)))%R.
  (** Every image of an atom within the cutoff [rc] of an atom of this processor is known to this processor, if the slabs have the width rc along every axis. *)
  Theorem neighbours_present C L rc q p : spaced C L -> slabs dims m s -> (forall i, i < 3 -> vget s i = (rc / vget L i)%R) -> sys' !! q = Some p ->
    forall a u k, a ∈ locals p -> u ∈ held sys' -> (normSq (vsub (C (translate (xPos u.2) k)) (C (xPos a))) < rc * rc)%R ->
    exists b, b ∈ locals p ++ ghosts p /\ is_image u.2 k b.
  Proof.
    intros [HL HC] Hs Hrc Hq a u k Ha Hu Hr. pose proof (gs_grid _ _ HG) as Hd.
    assert (HN : near (xpDom p) s (translate (xPos u.2) k)).
    { destruct all_split as (s1 & H1 & H2 & HI & G & HT & EH & ED).
      assert (HDq : domain_of dims (Z.of_nat q) (xpDom p)). { destruct (gi_dom _ _ G) as [_ HDo]. apply HDo. by rewrite list_lookup_fmap, Hq. }
      assert (Hqa : (q, a) ∈ held sys').
      { unfold held. apply elem_of_flat_map. exists q. split; [apply elem_of_seq; apply lookup_lt_Some in Hq; lia|]. rewrite Hq. apply elem_of_map. eauto. }
      rewrite EH in Hqa. destruct (settled_atom dims Hd m s sys s1 HG HD H1 _ Hqa) as (u' & _ & _ & _ & HY & _). cbn [fst snd] in HY.
      pose proof (proj2 (closed_yy dims Hd q _ _ HDq) HY) as HIn. intros i Hi. specialize (HIn i Hi). specialize (HC (translate (xPos u.2) k) (xPos a) i Hi).
      assert (HLi : (0 < vget L i)%R) by (destruct HL as (? & ? & ?); destruct i as [|[|[|]]]; [done|done|done|lia]).
      destruct (Hs i Hi) as [Hsi _]. rewrite (Hrc i Hi) in Hsi.
      assert (Hrc0 : (0 < rc)%R). { replace rc with (rc / vget L i * vget L i)%R by (field; lra). by apply Rmult_lt_0_compat. }
      assert (HA : (Rabs ((vget (translate (xPos u.2) k) i - vget (xPos a) i) * vget L i) < rc)%R).
      { rewrite <- (Rabs_pos_eq rc) by lra. apply Rsqr_lt_abs_0. unfold Rsqr. lra. }
      apply Rabs_def2 in HA as [A1 A2]. rewrite (Hrc i Hi).
      assert (E : (rc = rc / vget L i * vget L i)%R) by (field; lra). set (z := (rc / vget L i)%R) in *. rewrite E in A1, A2. rewrite <- Ropp_mult_distr_l_reverse in A2.
      apply Rmult_lt_reg_r in A1; [|done]. apply Rmult_lt_reg_r in A2; [|done]. lra. }
    destruct (proj2 (ghosts_complete q p Hs Hq (xId u.2) (xType u.2) (translate (xPos u.2) k))) as (b & Hb & E1 & E2 & E3).
    { exists u, k. done. }
    exists b. done.
  Qed.
End ghosts.

(** Both kinds of boxes have spaced planes, with the lengths that the Exchanger uses. *)
Lemma sq_nonneg x : (0 <= x * x)%R.
Proof. exact (Rle_0_sqr x). Qed.
Lemma ortho_spaced b l lat : owf b l lat -> spaced (genToCart b) (oLen b).
Proof.
  intros W. rewrite (w_len _ _ _ W). split; [exact (w_pos _ _ _ W)|]. intros g h i Hi. unfold normSq, vdot, vsub, genToCart. rewrite (w_len _ _ _ W). cbn [vx vy vz].
  pose proof (sq_nonneg (vx g * vx l - vx h * vx l)) as X. pose proof (sq_nonneg (vy g * vy l - vy h * vy l)) as Y. pose proof (sq_nonneg (vz g * vz l - vz h * vz l)) as Z.
  destruct i as [|[|[|]]]; [| | |lia]; cbn [vget]; rewrite !Rmult_minus_distr_r; lra.
Qed.
Lemma mono_spaced b l d : mwf b l d -> spaced (mono_genToCart b) (mLengths b).
Proof.
  intros W. destruct (m_pos _ _ _ W) as (P1 & P2 & P3). rewrite (m_lens _ _ _ W). set (c := (- d / vy l)%R).
  assert (Hc : (0 < 1 + c * c)%R) by (pose proof (sq_nonneg c); lra). pose proof (sqrt_lt_R0 _ Hc) as Hq. split.
  { unfold positive3. cbn [vx vy vz]. split; [done|]. split; [done|]. by apply Rdiv_lt_0_compat. }
  intros g h i Hi. unfold normSq, vdot, vsub, mono_genToCart. rewrite (m_l _ _ _ W), (m_d _ _ _ W). cbn [vx vy vz].
  set (X := (vx g - vx h)%R). set (Y := (vy g - vy h)%R). set (Z := (vz g - vz h)%R).
  replace (vx g * vx l - vx h * vx l)%R with (X * vx l)%R by (unfold X; lra). replace (vy g * vy l - vy h * vy l)%R with (Y * vy l)%R by (unfold Y; lra).
  replace (vz g * vz l + vy g * d - (vz h * vz l + vy h * d))%R with (Z * vz l + Y * d)%R by (unfold Y, Z; lra).
  pose proof (sq_nonneg (X * vx l)) as SX. pose proof (sq_nonneg (Y * vy l)) as SY. pose proof (sq_nonneg (Z * vz l + Y * d)) as SZ.
  destruct i as [|[|[|]]]; [| | |lia]; cbn [vget vx vy vz].
  - fold X. lra.
  - fold Y. lra.
  - fold Z. apply Rmult_le_reg_r with (1 + c * c)%R; [done|].
    replace (Z * (vz l / sqrt (1 + c * c)) * (Z * (vz l / sqrt (1 + c * c))) * (1 + c * c))%R with (Z * vz l * (Z * vz l))%R.
    2: { replace (1 + c * c)%R with (sqrt (1 + c * c) * sqrt (1 + c * c))%R at 3 by (apply sqrt_sqrt; lra). field. lra. }
    assert (E : (Y * d = - c * (Y * vy l))%R) by (unfold c; field; lra). rewrite E in *. set (A := (Y * vy l)%R) in *. set (B := (Z * vz l)%R) in *.
    pose proof (sq_nonneg (A - c * (B + - c * A))) as Q. pose proof (sq_nonneg (X * vx l)) as SX'. set (S := (X * vx l * (X * vx l))%R) in *.
    assert (0 <= S * (c * c))%R by (apply Rmult_le_pos; [done|apply sq_nonneg]). lra.
Qed.
