(** Proofs about the whole of Exchanger::exchange. *)
From Verif Require Import Base Containers Vec3 PlanModel DomainModel DomainSpec DomainProofs DomainProps SpeciesModel SpeciesProofs SimProofs DistSpec ExchModel ExchSpec ExchProofs ExchAtoms ExchElem ExchStart ExchGhost ExchCopies.
From Coq Require Import Reals Lra.
Local Open Scope nat_scope.

Definition cleared (p : xproc) : xproc := XP (xpDom p) (xpCap p) (xpGCap p) (xpMem p) (xpNext p) (xpLocals p) (xpGhosts p) (xpSend p) (fun _ _ => []).

Section final.
  Context (dims : vec3 Z) (Hd : grid_ok dims).
  Notation n := (n_proc dims).

  (** The state before exchangeGhosts: the send arrays hold the local atoms with ghost flags, in any order. *)
  Record ready (sys : list xproc) : Prop := {
    rd_dom : domains_of dims (map xpDom sys);
    rd_wf : Forall wf sys;
    rd_send : Forall (fun p => forall i j, i < 3 -> j < 2 -> xpSend p i j ≡ₚ List.filter (fun h => ghost (xPlan (xpMem p h)) i j) (xpLocals p)) sys;
    rd_ghost : Forall (fun p => xpGhosts p = []) sys }.
  Lemma inv_ready sys : inv dims [] sys -> ready sys.
  Proof.
    intros HI. split; [apply HI|apply HI| |apply HI]. eapply Forall_impl; [exact (iv_send _ _ _ HI)|]. cbn beta. intros p HS i j Hi Hj. rewrite (HS i j Hi Hj). done.
  Qed.
  Lemma ready_len sys : ready sys -> length sys = n.
  Proof. intros [[H _] _ _ _]. by rewrite map_length in H. Qed.

  Lemma ready_ginv sys : ready sys -> ginv dims (map cleared sys) /\ settled dims 0 (map cleared sys) /\ TF (atr LG (map cleared sys)) n = map (fun u => (u.1, ng u.2)) (held sys).
  Proof.
    intros HI. pose proof (ready_len _ HI) as Hl.
    assert (HG : forall p, p ∈ sys -> xpGhosts p = []) by (by apply Forall_forall; apply HI).
    assert (HS : forall p, p ∈ sys -> forall i j, i < 3 -> j < 2 -> xpSend p i j ≡ₚ List.filter (fun h => ghost (xPlan (xpMem p h)) i j) (xpLocals p)).
    { intros p Hp i j Hi Hj. exact (proj1 (Forall_forall _ _) (rd_send _ HI) p Hp i j Hi Hj). }
    split; [|split].
    - split; [rewrite map_map; apply HI|]. apply Forall_forall. intros p' Hp'. apply elem_of_map in Hp' as (p & -> & Hp). pose proof (proj1 (Forall_forall _ _) (rd_wf _ HI) p Hp) as [W1 W2].
      split; unfold cleared; xc; rewrite (HG p Hp), app_nil_r; [done|done|]. intros i j h Hi Hj Hh. rewrite HS in Hh by done. by apply elem_of_filter_b in Hh as [? _].
    - intros r a b Hr Ha Hb. unfold atr. rewrite list_lookup_fmap. destruct (sys !! r) as [p|] eqn:E; [|done]. assert (Hp : p ∈ sys) by (by eapply elem_of_list_lookup_2).
      change (SV (cleared p) a b ≡ₚ List.filter (gh a b) (LG (cleared p))). unfold SV, LG, cleared. xc. rewrite (HG p Hp), app_nil_r, filter_map_comm. rewrite HS by (done || lia). done.
    - unfold TF, held. rewrite Hl, map_flat_map. apply flat_map_ext_in. intros r _. unfold atr. rewrite list_lookup_fmap. destruct (sys !! r) as [p|] eqn:E; [|done].
      assert (Hp : p ∈ sys) by (by eapply elem_of_list_lookup_2). change (map (pair r) (LG (cleared p)) = map (fun u => (u.1, ng u.2)) (map (pair r) (locals p))).
      unfold LG, cleared, locals. xc. rewrite (HG p Hp), app_nil_r, !map_map. done.
  Qed.

  Lemma exchange_ghosts_ready sys sys' : ready sys -> exchangeGhosts sys = Ok sys' ->
    ginv dims sys' /\ TF (atr LG sys') n ≡ₚ flat_map (copies dims) (map (fun u => (u.1, ng u.2)) (held sys)) /\
    map xpDom sys' = map xpDom sys /\ map locals sys' = map locals sys /\ held sys' = held sys /\ map xpLocals sys' = map xpLocals sys.
  Proof.
    intros HI H. unfold exchangeGhosts in H. destruct (forallb _ _); [|discriminate]. change (fun p => XP _ _ _ _ _ _ _ _ _) with cleared in H.
    destruct (ready_ginv sys HI) as (G1 & G2 & G3). destruct (ghosts_T dims Hd _ _ G1 G2 H) as (I2 & T2 & D2 & P2 & L2). rewrite G3 in T2.
    rewrite map_map in D2, L2, P2. split; [done|]. split; [done|]. split; [done|]. split; [done|]. split; [|done].
    assert (E : forall r, match sys' !! r with Some p => locals p | None => [] end = match sys !! r with Some p => locals p | None => [] end).
    { intros r. apply (f_equal (fun l => l !! r)) in L2. rewrite !list_lookup_fmap in L2. destruct (sys' !! r), (sys !! r); cbn in L2; try done. by injection L2. }
    unfold held. replace (length sys') with (length sys) by (apply (f_equal length) in L2; by rewrite !map_length in L2).
    apply flat_map_ext_in. intros r _. specialize (E r). destruct (sys' !! r), (sys !! r); try done; [by rewrite E|by rewrite E|by rewrite <- E].
  Qed.
  Lemma exchange_ghosts_raw sys sys' : inv dims [] sys -> exchangeGhosts sys = Ok sys' ->
    ginv dims sys' /\ TF (atr LG sys') n ≡ₚ flat_map (copies dims) (map (fun u => (u.1, ng u.2)) (held sys)) /\
    map xpDom sys' = map xpDom sys /\ map locals sys' = map locals sys /\ held sys' = held sys.
  Proof. intros HI H. destruct (exchange_ghosts_ready sys sys' (inv_ready _ HI) H) as (? & ? & ? & ? & ? & _). done. Qed.

  (** Flags and positions after exchangeAtoms. *)
  Lemma settled_atom m s sys sys' : grid_system dims sys -> displaced dims m sys -> exchangeAtoms s sys = Ok sys' ->
    forall v, v ∈ held sys' -> exists u, u ∈ held sys /\ v.1 < n /\ same_atom u.2 v.2 /\ (forall i, i < 3 -> (0 <= yy dims i v.1 (xPos v.2) <= 1)%R) /\
    (slabs dims m s -> forall i, i < 3 -> let w := (vget s i * IZR (vget dims i))%R in (gh i 0 v.2 = true <-> yy dims i v.1 (xPos v.2) < w)%R /\ (gh i 1 v.2 = true <-> 1 - w < yy dims i v.1 (xPos v.2))%R).
  Proof.
    intros HG [Hm HD] H v Hv. destruct (exchange_atoms_pairs dims s sys HG sys' H) as (l & HP & HF). rewrite <- HP in Hv.
    apply elem_of_list_lookup in Hv as [x Hx]. destruct (Forall2_lookup_r _ _ _ _ _ HF Hx) as (u & Hu & E). apply elem_of_list_lookup_2 in Hu. exists u. split; [done|].
    destruct (held_elem dims sys HG u Hu) as (p & Hp & Hps & Hloc & Hr & Hdom). destruct (M_st dims s sys HG u (xpDom p) Hu p Hp eq_refl) as (M1 & M2 & M3 & M4). rewrite E in *.
    cbn [fst snd nf xPos xPlan] in M1, M2, M4. unfold same_atom in M3. cbn [fst snd nf xPos xId xType xRest] in M3.
    pose proof (proj1 (within_yy dims Hd _ _ _ _ Hdom) (HD p u.2 Hps Hloc)) as HW.
    assert (Hmd : forall i, i < 3 -> (0 <= vget m i * IZR (vget dims i) <= 1)%R).
    { intros i Hi. destruct (Hm i Hi) as [H1 H2]. unfold width in H2. pose proof (dd_pos dims Hd i) as Hdd. split; [apply Rmult_le_pos; lra|].
      replace 1%R with (/ IZR (vget dims i) * IZR (vget dims i))%R by (field; lra). apply Rmult_le_compat_r; lra. }
    split; [done|]. split; [done|]. split.
    - intros i Hi. rewrite M4 by done. specialize (HW i Hi). specialize (Hmd i Hi). destruct (Rlt_dec _ 0); [lra|]. destruct (Rlt_dec 1 _); lra.
    - intros Hs i Hi w. unfold gh. rewrite M2, M4 by done. destruct (flags_yy dims Hd _ _ s (xPos u.2) i Hdom Hi) as (_ & _ & G0 & G1). rewrite G0, G1.
      specialize (HW i Hi). specialize (Hmd i Hi). assert (Hw : (0 < w /\ w + vget m i * IZR (vget dims i) <= 1)%R).
      { destruct (Hs i Hi) as [S1 S2]. pose proof (dd_pos dims Hd i) as Hdd. unfold w. unfold width in S2. split; [apply Rmult_lt_0_compat; lra|].
        replace 1%R with (/ IZR (vget dims i) * IZR (vget dims i))%R by (field; lra). rewrite <- Rmult_plus_distr_r. apply Rmult_le_compat_r; lra. }
      fold w. destruct (Rlt_dec _ 0); [split; lra|]. destruct (Rlt_dec 1 _); split; lra.
  Qed.

  (** ** Completion *)
  Definition size (sys : list xproc) : nat := length (TF (atr LG sys) n).
  Lemma TF_len {A} (f : nat -> list A) r : r < n -> length (f r) <= length (TF f n).
  Proof. intros Hr. destruct (TF_split f n r Hr) as (X & Y & ->). rewrite !app_length, map_length. lia. Qed.
  Lemma ground_ok i j sys : i < 3 -> j < 2 -> ginv dims sys -> (forall r p q, sys !! r = Some p -> sys !! src dims i j r = Some q -> length (xpGhosts p) + length (SV q i j) <= xpGCap p) ->
    exists sys', xground i j sys = Ok sys'.
  Proof.
    intros Hi Hj HI Hc. unfold xground. apply mapO_total. intros r p Hp. pose proof (ginv_len _ _ HI) as Hlen.
    pose proof (dom_at _ _ _ _ (gi_dom _ _ HI) Hp) as HD. destruct (dom_tables _ Hd _ _ HD) as (_ & _ & Ht). destruct (Ht i j Hi Hj) as (Hs & _ & Hsh).
    pose proof (flag_iff _ Hd _ _ i HD Hi) as Hfl. assert (Hr : r < n) by (rewrite <- Hlen; by eapply lookup_lt_Some).
    destruct (lookup_lt_is_Some_2 sys (src dims i j r)) as [q Hq]; [rewrite Hlen; by apply src_lt|].
    specialize (Hc r p q Hp Hq). unfold SV in Hc. rewrite map_length in Hc.
    destruct (xflag (xpDom p) i) eqn:Hf.
    - unfold from_source. rewrite Hs. rewrite (aget_Ok' _ _ (xgpack i j q)) by (by rewrite list_lookup_fmap, Hq). cbn [obind]. unfold xgunpack. replace (length (xgpack i j _)) with (length (xpSend q i j)) by (unfold xgpack; by rewrite map_length).
      rewrite decide_True by done. eauto.
    - cbn [obind]. symmetry in Hfl. apply bool_decide_eq_false in Hfl. pose proof (vget3_pos _ i Hd). destruct (dst_one _ Hd i j r Hi Hr) as [_ E]; [lia|]. rewrite E, Hp in Hq. injection Hq as ->.
      unfold xgunpack. replace (length (xgpack i j _)) with (length (xpSend q i j)) by (unfold xgpack; by rewrite map_length). rewrite decide_True by done. eauto.
  Qed.
  Lemma cop_len i l : length (flat_map (cop dims i) l) <= 3 * length l.
  Proof. induction l as [|u l IH]; cbn [flat_map length]; [lia|]. rewrite app_length. assert (length (cop dims i u) <= 3) by (unfold cop, opt; destruct (gh i 0 u.2), (gh i 1 u.2); cbn; lia). lia. Qed.
  Lemma len_LG p : length (LG p) = length (xpLocals p) + length (xpGhosts p).
  Proof. unfold LG. by rewrite map_length, app_length. Qed.
  Lemma filter_len {A} (f : A -> bool) l : length (List.filter f l) <= length l.
  Proof. induction l as [|x l IH]; cbn; [lia|]. destruct (f x); cbn; lia. Qed.
  Lemma axis_ok i s0 B : i < 3 -> ginv dims s0 -> settled dims i s0 -> size s0 <= B -> Forall (fun c => 3 * B <= c) (map xpGCap s0) ->
    exists s1 s2, xground i 0 s0 = Ok s1 /\ xground i 1 s1 = Ok s2 /\ size s2 <= 3 * B /\ map xpGCap s2 = map xpGCap s0.
  Proof.
    intros Hi HI HS HB Hc. pose proof (ginv_len _ _ HI) as Hlen.
    assert (HC : forall r p, s0 !! r = Some p -> 3 * B <= xpGCap p). { intros r p Hp. apply (proj1 (Forall_lookup _ _) Hc r). by rewrite list_lookup_fmap, Hp. }
    assert (HLG : forall r p, s0 !! r = Some p -> r < n /\ length (LG p) <= B).
    { intros r p Hp. assert (Hr : r < n) by (rewrite <- Hlen; by eapply lookup_lt_Some). split; [done|]. pose proof (TF_len (atr LG s0) r Hr) as HT. rewrite (atr_Some _ _ _ _ Hp) in HT. unfold size in HB. lia. }
    assert (HSV : forall r p j, s0 !! r = Some p -> j < 2 -> length (SV p i j) <= B).
    { intros r p j Hp Hj. destruct (HLG r p Hp) as [Hr HL]. specialize (HS r i j Hr ltac:(lia) Hj). rewrite !(atr_Some _ _ _ _ Hp) in HS. apply Permutation_length in HS. rewrite HS.
      pose proof (filter_len (gh i j) (LG p)). lia. }
    destruct (ground_ok i 0 s0) as [s1 E1]; [done|lia|done| |].
    { intros r p q Hp Hq. specialize (HC r p Hp). destruct (HLG r p Hp) as [_ HL]. rewrite len_LG in HL. specialize (HSV _ q 0 Hq ltac:(lia)). lia. }
    destruct (ground_inv dims Hd i 0 s0 s1 Hi ltac:(lia) HI E1) as (I1 & _ & G1 & _). pose proof (ground_vals dims Hd i 0 s0 s1 Hi ltac:(lia) HI E1) as V1.
    assert (HP : forall r p1, s1 !! r = Some p1 -> exists p, s0 !! r = Some p /\ xpGCap p1 = xpGCap p /\ length (LG p1) <= 2 * B /\ length (SV p1 i 1) <= B).
    { intros r p1 Hp1. assert (Hr : r < n) by (rewrite <- (ginv_len _ _ I1); by eapply lookup_lt_Some). destruct (lookup_lt_is_Some_2 s0 r) as [p Hp]; [by rewrite Hlen|].
      exists p. split; [done|]. split.
      { apply (f_equal (fun l => l !! r)) in G1. rewrite !list_lookup_fmap, Hp, Hp1 in G1. cbn in G1. by injection G1. }
      destruct (V1 r Hr) as [W X]. destruct (lookup_lt_is_Some_2 s0 (src dims i 0 r)) as [q Hq]; [rewrite Hlen; by apply src_lt|].
      specialize (X i 1 Hi ltac:(lia)). rewrite decide_False, app_nil_r in X by lia. rewrite (atr_Some _ _ _ _ Hp1), (atr_Some _ _ _ _ Hp) in W. rewrite (atr_Some _ _ _ _ Hp1), (atr_Some _ _ _ _ Hp) in X. rewrite (atr_Some _ _ _ _ Hq) in W.
      rewrite W, X, app_length, map_length. specialize (HSV _ q 0 Hq ltac:(lia)) as H1. specialize (HSV _ p 1 Hp ltac:(lia)) as H2. destruct (HLG r p Hp) as [_ H3]. lia. }
    destruct (ground_ok i 1 s1) as [s2 E2]; [done|lia|done| |].
    { intros r p q Hp Hq. destruct (HP r p Hp) as (p0 & Hp0 & E & HL & _). destruct (HP _ q Hq) as (q0 & Hq0 & _ & _ & HV). specialize (HC r p0 Hp0). rewrite len_LG in HL. lia. }
    destruct (axis_step dims Hd i s0 s1 s2 Hi HI HS E1 E2) as (_ & _ & T2 & _). destruct (ground_inv dims Hd i 1 s1 s2 Hi ltac:(lia) I1 E2) as (_ & _ & G2 & _).
    exists s1, s2. split; [done|]. split; [done|]. split; [|congruence]. unfold size in *. rewrite (Permutation_length T2). pose proof (cop_len i (TF (atr LG s0) n)). lia.
  Qed.
  Lemma exchange_ghosts_ready_ok sys : ready sys -> Forall (fun c => 27 * length (held sys) <= c) (map xpGCap sys) -> exists sys', exchangeGhosts sys = Ok sys'.
  Proof.
    intros HI Hc. unfold exchangeGhosts. change (fun p => XP _ _ _ _ _ _ _ _ _) with cleared.
    replace (forallb _ sys) with true.
    2: { symmetry. apply forallb_forall. intros p Hp. apply bool_decide_eq_true. apply (proj1 (Forall_forall _ _) (rd_ghost _ HI)). by apply elem_of_list_In. }
    destruct (ready_ginv sys HI) as (G1 & G2 & G3). set (B := length (held sys)) in *.
    assert (HC : map xpGCap (map cleared sys) = map xpGCap sys) by (by rewrite map_map).
    assert (Hc' : forall k, k <= 27 -> Forall (fun c => k * B <= c) (map xpGCap sys)). { intros k Hk. eapply Forall_impl; [exact Hc|]. cbn. intros c Hcc. nia. }
    destruct (axis_ok 0 (map cleared sys) B) as (a1 & a2 & A1 & A2 & AB & AC); [lia|done|done|unfold size; by rewrite G3, map_length|rewrite HC; apply Hc'; lia|].
    destruct (axis_step dims Hd 0 _ a1 a2 ltac:(lia) G1 G2 A1 A2) as (I1 & S1 & _).
    destruct (axis_ok 1 a2 (3 * B)) as (a3 & a4 & A3 & A4 & BB & BC); [lia|done|done|done|rewrite AC, HC; eapply Forall_impl; [exact Hc|]; cbn; intros; lia|].
    destruct (axis_step dims Hd 1 _ a3 a4 ltac:(lia) I1 S1 A3 A4) as (I2 & S2 & _).
    destruct (axis_ok 2 a4 (3 * (3 * B))) as (a5 & a6 & A5 & A6 & _ & _); [lia|done|done|done|rewrite BC, AC, HC; eapply Forall_impl; [exact Hc|]; cbn; intros; lia|].
    exists a6. unfold dirs. cbn [foldM fst snd]. rewrite A1. cbn [obind]. rewrite A2. cbn [obind]. rewrite A3. cbn [obind]. rewrite A4. cbn [obind]. rewrite A5. cbn [obind]. by rewrite A6.
  Qed.
  Lemma exchange_ghosts_ok sys : inv dims [] sys -> Forall (fun c => 27 * length (held sys) <= c) (map xpGCap sys) -> exists sys', exchangeGhosts sys = Ok sys'.
  Proof. intros HI. apply exchange_ghosts_ready_ok. by apply inv_ready. Qed.
End final.
