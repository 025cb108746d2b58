(** Proofs about exchangeAtoms: what one round does to all atoms together. *)
From Verif Require Import Base Containers Vec3 PlanModel DomainModel DomainSpec DomainProofs DomainProps SpeciesModel SpeciesProofs SimProofs DistSpec ExchModel ExchSpec ExchProofs.
From Coq Require Import Reals Lra.
Local Open Scope nat_scope.

Ltac xc := cbn [xpDom xpCap xpGCap xpMem xpNext xpLocals xpGhosts xpSend xpRecv xId xType xPos xPlan xForce xRest fst snd] in *.

(** An atom without its force. *)
Definition nf (a : xatom) : xatom := XA (xId a) (xType a) (xPos a) (xPlan a) (V3 0 0 0)%R (xRest a).
Definition sh_a (i : nat) (t : Z) (a : xatom) : xatom := XA (xId a) (xType a) (shift_pos (xPos a) i t) (xPlan a) (xForce a) (xRest a).
Lemma nf_sh i t a : nf (sh_a i t a) = sh_a i t (nf a).
Proof. done. Qed.
Definition ex (i j : nat) (a : xatom) : bool := exchange (xPlan a) i j.
Definition L (p : xproc) : list xatom := map (fun h => nf (xpMem p h)) (xpLocals p).
Definition wf (p : xproc) : Prop := NoDup (xpLocals p) /\ Forall (fun h => h < xpNext p) (xpLocals p).
(** No transfer left in the directions [ds]. *)
Definition hr (ds : list (nat * nat)) (D : domain) (pl : plan) : bool := forallb (fun ij => negb (xflag D ij.1 && exchange pl ij.1 ij.2)) ds.
(** The send arrays hold the atoms that stay. *)
Definition SI (ds : list (nat * nat)) (p : xproc) : Prop := forall i j, i < 3 -> j < 2 ->
  xpSend p i j = List.filter (fun h => hr ds (xpDom p) (xPlan (xpMem p h)) && ghost (xPlan (xpMem p h)) i j) (xpLocals p).
Definition excl (a : xatom) : Prop := forall i, i < 3 -> ex i 0 a = true -> ex i 1 a = true -> False.

Lemma pack_flag i j ds p : xflag (xpDom p) i = true -> wf p -> SI ((i, j) :: ds) p ->
  let p1 := (xpack i j p).1 in
  wf p1 /\ SI ds p1 /\ L p1 = List.filter (fun a => negb (ex i j a)) (L p) /\ map nf (xpack i j p).2 = List.filter (ex i j) (L p) /\
  xpDom p1 = xpDom p /\ xpCap p1 = xpCap p /\ xpGCap p1 = xpGCap p /\ xpGhosts p1 = xpGhosts p.
Proof.
  intros Hf [Hn Hl] HS. unfold xpack. rewrite Hf. xc. repeat split; xc; try done.
  - by apply NoDup_filter_b.
  - by apply Forall_filter_b.
  - intros ip jp Hi Hj. xc. rewrite HS by done. rewrite filter_filter. apply List.filter_ext. intros h. cbn [hr forallb fst snd]. rewrite Hf. cbn [andb].
    by rewrite andb_assoc.
  - unfold L. xc. rewrite filter_map_comm. done.
  - unfold L. rewrite filter_map_comm, map_map. done.
Qed.

Lemma pack_noflag i j ds p : xflag (xpDom p) i = false -> wf p -> SI ((i, j) :: ds) p ->
  let p1 := (xpack i j p).1 in
  wf p1 /\ SI ds p1 /\ L p1 = map (fun a => if ex i j a then sh_a i (dShift (xpDom p) i j) a else a) (L p) /\
  xpDom p1 = xpDom p /\ xpCap p1 = xpCap p /\ xpGCap p1 = xpGCap p /\ xpGhosts p1 = xpGhosts p.
Proof.
  intros Hf [Hn Hl] HS. unfold xpack. rewrite Hf. xc. repeat split; xc; try done.
  - intros ip jp Hi Hj. xc. rewrite HS by done. apply List.filter_ext. intros h. cbn [hr forallb fst snd]. rewrite Hf. cbn [andb negb].
    destruct (decide _); done.
  - unfold L. xc. rewrite map_map. apply map_ext_elem. intros h Hh. unfold ex. cbn [nf xPlan].
    destruct (exchange (xPlan (xpMem p h)) i j) eqn:E.
    + rewrite decide_True by done. done.
    + rewrite decide_False by (intros [_ ?]; done). done.
Qed.

Lemma take_one i j ds p a : wf p -> SI ds p -> hr ds (xpDom p) (xPlan a) = stays (xpDom p) (S i) (xPlan a) ->
  let p1 := xtake i j p a in
  wf p1 /\ SI ds p1 /\ L p1 = L p ++ [sh_a i (dShift (xpDom p) i j) (nf a)] /\
  xpDom p1 = xpDom p /\ xpCap p1 = xpCap p /\ xpGCap p1 = xpGCap p /\ xpGhosts p1 = xpGhosts p.
Proof.
  intros [Hn Hl] HS Hh. unfold xtake. xc.
  assert (Hne : forall h, h ∈ xpLocals p -> h <> xpNext p). { intros h Hin. rewrite Forall_forall in Hl. specialize (Hl h Hin). lia. }
  repeat split; xc; try done.
  - apply NoDup_app. split; [done|]. split; [|apply NoDup_singleton]. intros h Hin Hin'. apply elem_of_list_singleton in Hin'. by apply (Hne h).
  - apply Forall_app. split; [|constructor; [lia|constructor]]. eapply Forall_impl; [exact Hl|]. cbn. lia.
  - intros ip jp Hi Hj. xc. rewrite List.filter_app. cbn [List.filter]. rewrite decide_True by done. xc. rewrite Hh.
    rewrite (filter_ext_in' _ (fun h => hr ds (xpDom p) (xPlan (xpMem p h)) && ghost (xPlan (xpMem p h)) ip jp)), <- HS by
      (try done; intros h Hin; by rewrite decide_False by (by apply Hne)).
    destruct (stays _ _ _); cbn [andb].
    + unfold add_sends. rewrite decide_True by lia. destruct (ghost _ _ _); [done|by rewrite app_nil_r].
    + by rewrite app_nil_r.
  - unfold L. xc. rewrite map_app. cbn [map]. rewrite decide_True by done. f_equal.
    apply map_ext_elem. intros h Hin. by rewrite decide_False by (by apply Hne).
Qed.

Lemma take_all i j ds msg : forall p, wf p -> SI ds p -> (forall a, a ∈ msg -> hr ds (xpDom p) (xPlan a) = stays (xpDom p) (S i) (xPlan a)) ->
  let p1 := fold_left (xtake i j) msg p in
  wf p1 /\ SI ds p1 /\ L p1 = L p ++ map (sh_a i (dShift (xpDom p) i j)) (map nf msg) /\
  xpDom p1 = xpDom p /\ xpCap p1 = xpCap p /\ xpGCap p1 = xpGCap p /\ xpGhosts p1 = xpGhosts p.
Proof.
  induction msg as [|a msg IH]; intros p Hw HS Hm; cbn [fold_left map].
  - repeat split; try done; try apply Hw. by rewrite app_nil_r.
  - destruct (take_one i j ds p a Hw HS) as (H1 & H2 & H3 & H4 & H5 & H6 & H7); [apply Hm; by left|].
    destruct (IH (xtake i j p a) H1 H2) as (K1 & K2 & K3 & K4 & K5 & K6 & K7).
    { intros b Hb. rewrite H4. apply Hm. by right. }
    rewrite K3, K4, K5, K6, K7, H3, H4, H5, H6, H7. rewrite <- app_assoc. done.
Qed.

(** ** All processors *)
Definition Lr (sys : list xproc) (r : nat) : list xatom := match sys !! r with Some p => L p | None => [] end.
Definition TF {A} (f : nat -> list A) (n : nat) : list (nat * A) := flat_map (fun r => map (pair r) (f r)) (seq 0 n).
Definition T (sys : list xproc) : list (nat * xatom) := TF (Lr sys) (length sys).

Section round.
  Context (dims : vec3 Z) (Hd : grid_ok dims).
  Notation n := (n_proc dims).
  (** What a round does to an atom on a processor. *)
  Definition mv (i j : nat) (u : nat * xatom) : nat * xatom :=
    if ex i j u.2 then (dst dims i j u.1, sh_a i (shf dims i j (dst dims i j u.1)) u.2) else u.

  Record inv (ds : list (nat * nat)) (sys : list xproc) : Prop := {
    iv_dom : domains_of dims (map xpDom sys);
    iv_wf : Forall wf sys;
    iv_send : Forall (SI ds) sys;
    iv_ghost : Forall (fun p => xpGhosts p = []) sys;
    iv_excl : Forall (fun u => excl u.2) (T sys) }.

  Lemma inv_len ds sys : inv ds sys -> length sys = n.
  Proof. intros [[H _] _ _ _ _]. by rewrite map_length in H. Qed.
  Lemma dom_at sys r p : domains_of dims (map xpDom sys) -> sys !! r = Some p -> domain_of dims (Z.of_nat r) (xpDom p).
  Proof. intros [_ H] Hp. apply H. by rewrite list_lookup_fmap, Hp. Qed.
  Lemma elem_T sys r p a : sys !! r = Some p -> a ∈ L p -> (r, a) ∈ T sys.
  Proof.
    intros Hp Ha. unfold T, TF. apply elem_of_flat_map. exists r. split; [apply elem_of_seq; apply lookup_lt_Some in Hp; lia|].
    apply elem_of_map. exists a. split; [done|]. unfold Lr. by rewrite Hp.
  Qed.
  Lemma T_elem sys r a : (r, a) ∈ T sys -> exists p, sys !! r = Some p /\ a ∈ L p.
  Proof.
    unfold T, TF. intros H. apply elem_of_flat_map in H as (r' & Hr & H). apply elem_of_map in H as (b & [= <- <-] & H). unfold Lr in H.
    destruct (sys !! r) as [p|] eqn:E; [|by apply elem_of_nil in H]. by exists p.
  Qed.

  Definition after (i j : nat) (ds : list (nat * nat)) : Prop := exists pre, dirs = pre ++ (i, j) :: ds.
  Lemma after_cases i j ds : after i j ds -> i < 3 /\ j < 2 /\
    (j = 1 -> forall D pl, hr ds D pl = stays D (S i) pl) /\
    (j = 0 -> forall D pl, exchange pl i 1 = false -> hr ds D pl = stays D (S i) pl).
  Proof.
    intros [pre H]. unfold dirs in H.
    repeat (destruct pre as [|? pre]; [injection H as <- <- <-; repeat split; try lia; intros Hj; try discriminate; intros D pl; try (intros He);
      unfold stays, hr; cbn [forallb seq Nat.sub fst snd]; try rewrite He;
      repeat match goal with |- context [xflag D ?k] => destruct (xflag D k) end; cbn [andb orb negb];
      repeat match goal with |- context [exchange pl ?k ?l] => destruct (exchange pl k l) end; reflexivity|injection H as _ H]).
    destruct pre; discriminate.
  Qed.

  (** The message for rank [r], and what its processor has afterwards. *)
  Lemma round_at i j ds sys r p : after i j ds -> inv ((i, j) :: ds) sys -> sys !! r = Some p ->
    let packed := map (xpack i j) sys in
    forall p', (if xflag (xpDom (xpack i j p).1) i then let? msg := from_source (xpDom (xpack i j p).1) i j (map snd packed) in xunpack i j (xpack i j p).1 msg else Ok (xpack i j p).1) = Ok p' ->
    wf p' /\ SI ds p' /\ xpDom p' = xpDom p /\ xpCap p' = xpCap p /\ xpGCap p' = xpGCap p /\ xpGhosts p' = [] /\
    L p' = if bool_decide (1 < vget dims i)%Z then List.filter (fun a => negb (ex i j a)) (L p) ++ map (sh_a i (shf dims i j r)) (List.filter (ex i j) (Lr sys (src dims i j r)))
           else map (fun a => if ex i j a then sh_a i (shf dims i j r) a else a) (L p).
  Proof.
    intros Ha HI Hp packed p'. destruct (after_cases _ _ _ Ha) as (Hi & Hj & Hh1 & Hh0).
    pose proof (dom_at _ _ _ (iv_dom _ _ HI) Hp) as HD. destruct (dom_tables _ Hd _ _ HD) as (_ & _ & Ht). destruct (Ht i j Hi Hj) as (Hs & _ & Hsh).
    pose proof (flag_iff _ Hd _ _ i HD Hi) as Hfl.
    pose proof (proj1 (Forall_lookup _ _) (iv_wf _ _ HI) _ _ Hp) as Hw. pose proof (proj1 (Forall_lookup _ _) (iv_send _ _ HI) _ _ Hp) as HS. cbn beta in HS.
    pose proof (proj1 (Forall_lookup _ _) (iv_ghost _ _ HI) _ _ Hp) as Hg. cbn beta in Hg.
    destruct (xflag (xpDom p) i) eqn:Hf.
    - destruct (pack_flag i j ds p Hf Hw HS) as (W1 & S1 & L1 & _ & D1 & C1 & C2 & G1). rewrite D1, Hf. unfold from_source.
      rewrite Hs. destruct (aget (map snd packed) (src dims i j r)) as [msg| |] eqn:Em; cbn [obind]; try discriminate.
      apply aget_Ok in Em. unfold packed in Em. rewrite !list_lookup_fmap in Em.
      destruct (sys !! src dims i j r) as [q|] eqn:Eq; [|done]. cbn in Em. injection Em as Em.
      pose proof (dom_at _ _ _ (iv_dom _ _ HI) Eq) as HDq. pose proof (flag_iff _ Hd _ _ i HDq Hi) as Hfq.
      assert (Hfq' : xflag (xpDom q) i = true) by congruence.
      destruct (pack_flag i j ds q Hfq') as (_ & _ & _ & M1 & _); [by apply (proj1 (Forall_lookup _ _) (iv_wf _ _ HI) _ _ Eq)|by apply (proj1 (Forall_lookup _ _) (iv_send _ _ HI) _ _ Eq)|].
      rewrite Em in M1. unfold xunpack. destruct (decide _) as [_|]; [|discriminate]. intros [= <-].
      destruct (take_all i j ds msg (xpack i j p).1 W1 S1) as (W2 & S2 & L2 & D2 & C3 & C4 & G2).
      { intros a Hin. assert (Hin' : nf a ∈ List.filter (ex i j) (L q)). { rewrite <- M1. apply elem_of_map. by exists a. }
        apply elem_of_filter_b in Hin' as [Hin' He]. unfold ex in He. cbn [nf xPlan] in He. destruct j as [|[|]]; [|by apply Hh1|lia]. apply Hh0; [done|].
        pose proof (elem_T _ _ _ _ Eq Hin') as HT. pose proof (proj1 (Forall_forall _ _) (iv_excl _ _ HI) _ HT i Hi) as Hex.
        destruct (exchange (xPlan a) i 1) eqn:E1; [|done]. exfalso. apply Hex; done. }
      split; [done|]. split; [done|]. split; [congruence|]. split; [congruence|]. split; [congruence|]. split; [congruence|].
      rewrite <- Hfl. cbn iota. rewrite L2, L1, M1, D1, Hsh. unfold Lr. by rewrite Eq.
    - destruct (pack_noflag i j ds p Hf Hw HS) as (W1 & S1 & L1 & D1 & C1 & C2 & G1). rewrite D1, Hf. intros [= <-].
      split; [done|]. split; [done|]. split; [done|]. split; [done|]. split; [done|]. split; [congruence|]. rewrite <- Hfl. cbn iota. by rewrite L1, Hsh.
  Qed.

  Lemma round_T i j (f f' : nat -> list xatom) : i < 3 ->
    (forall r, r < n -> f' r = if bool_decide (1 < vget dims i)%Z then List.filter (fun a => negb (ex i j a)) (f r) ++ map (sh_a i (shf dims i j r)) (List.filter (ex i j) (f (src dims i j r)))
           else map (fun a => if ex i j a then sh_a i (shf dims i j r) a else a) (f r)) ->
    TF f' n ≡ₚ map (mv i j) (TF f n).
  Proof.
    intros Hi HL. unfold TF. rewrite map_flat_map. case_bool_decide as Hf.
    - etransitivity.
      { apply flat_map_ext_Perm with (g := fun r => map (pair r) (List.filter (fun a => negb (ex i j a)) (f r)) ++ map (fun a => (r, sh_a i (shf dims i j r) a)) (List.filter (ex i j) (f (src dims i j r)))).
        intros r Hr. apply elem_of_seq in Hr. rewrite HL by lia. rewrite map_app, map_map. done. }
      rewrite flat_map_app_Perm.
      rewrite (flat_map_Perm (fun r => map (fun a => (r, sh_a i (shf dims i j r) a)) (List.filter (ex i j) (f (src dims i j r)))) (seq 0 n) (map (dst dims i j) (seq 0 n)))
        by (symmetry; by apply dst_perm).
      rewrite flat_map_map, <- flat_map_app_Perm. apply flat_map_ext_Perm. intros r Hr. apply elem_of_seq in Hr.
      rewrite src_dst by (done || lia). rewrite map_split, map_map. unfold mv. cbn [fst snd]. done.
    - apply flat_map_ext_Perm. intros r Hr. apply elem_of_seq in Hr. rewrite HL by lia. rewrite !map_map. unfold mv. cbn [fst snd].
      match goal with |- ?x ≡ₚ ?y => replace x with y; [done|] end. apply map_ext_elem. intros a _. pose proof (vget3_pos _ i Hd). destruct (dst_one _ Hd i j r) as [-> _]; [done|lia|lia|].
      by destruct (ex i j a).
  Qed.

  Lemma excl_mv i j l : Forall (fun u : nat * xatom => excl u.2) l -> Forall (fun u => excl u.2) (map (mv i j) l).
  Proof. rewrite !Forall_forall. intros H u Hu. apply elem_of_map in Hu as (v & -> & Hv). specialize (H v Hv). unfold mv. by destruct (ex i j v.2). Qed.

  Lemma round_inv i j ds sys sys' : after i j ds -> inv ((i, j) :: ds) sys -> xround i j sys = Ok sys' ->
    inv ds sys' /\ T sys' ≡ₚ map (mv i j) (T sys) /\ map xpDom sys' = map xpDom sys /\ map xpCap sys' = map xpCap sys /\ map xpGCap sys' = map xpGCap sys.
  Proof.
    intros Ha HI H. unfold xround in H. apply mapO_Ok in H. destruct (after_cases _ _ _ Ha) as (Hi & Hj & _ & _).
    assert (Hlen : length sys' = length sys). { apply Forall2_length in H. by rewrite !map_length in H. }
    assert (HP : forall r p p', sys !! r = Some p -> sys' !! r = Some p' -> wf p' /\ SI ds p' /\ xpDom p' = xpDom p /\ xpCap p' = xpCap p /\ xpGCap p' = xpGCap p /\ xpGhosts p' = [] /\
      L p' = if bool_decide (1 < vget dims i)%Z then List.filter (fun a => negb (ex i j a)) (L p) ++ map (sh_a i (shf dims i j r)) (List.filter (ex i j) (Lr sys (src dims i j r)))
           else map (fun a => if ex i j a then sh_a i (shf dims i j r) a else a) (L p)).
    { intros r p p' Hp Hp'. apply (round_at i j ds sys r p Ha HI Hp). apply (Forall2_lookup_lr _ _ _ r (xpack i j p).1 p' H); [|done].
      by rewrite !list_lookup_fmap, Hp. }
    assert (HL : forall r p', sys' !! r = Some p' -> exists p, sys !! r = Some p). { intros r p' Hr. apply lookup_lt_is_Some. rewrite <- Hlen. by eapply lookup_lt_Some. }
    assert (HD : map xpDom sys' = map xpDom sys /\ map xpCap sys' = map xpCap sys /\ map xpGCap sys' = map xpGCap sys).
    { assert (forall B (f : xproc -> B), (forall r p p', sys !! r = Some p -> sys' !! r = Some p' -> f p' = f p) -> map f sys' = map f sys) as HH.
      { intros B f Hf. apply list_eq. intros r. rewrite !list_lookup_fmap. destruct (sys' !! r) as [p'|] eqn:E; cbn.
        - destruct (HL _ _ E) as [p Hp]. rewrite Hp. cbn. f_equal. by eapply Hf.
        - apply lookup_ge_None in E. rewrite (proj2 (lookup_ge_None _ _)) by lia. done. }
      repeat split; apply HH; intros r p p' Hp Hp'; apply (HP r p p' Hp Hp'). }
    assert (HT : T sys' ≡ₚ map (mv i j) (T sys)).
    { pose proof (inv_len _ _ HI) as Hn. unfold T. rewrite Hlen, Hn. apply round_T; [done|]. intros r Hr. unfold Lr at 1 2. destruct (lookup_lt_is_Some_2 sys r) as [p Hp]; [lia|].
      destruct (lookup_lt_is_Some_2 sys' r) as [p' Hp']; [lia|]. rewrite Hp', Hp.
      destruct (HP r p p' Hp Hp') as (_ & _ & _ & _ & _ & _ & ->). unfold Lr at 3. rewrite Hp. done. }
    split; [|done]. split.
    - rewrite (proj1 HD). apply HI.
    - apply Forall_lookup. intros r p' Hp'. destruct (HL _ _ Hp') as [p Hp]. apply (HP r p p' Hp Hp').
    - apply Forall_lookup. intros r p' Hp'. destruct (HL _ _ Hp') as [p Hp]. apply (HP r p p' Hp Hp').
    - apply Forall_lookup. intros r p' Hp'. destruct (HL _ _ Hp') as [p Hp]. apply (HP r p p' Hp Hp').
    - rewrite HT. apply excl_mv. apply HI.
  Qed.

  (** All the remaining rounds. *)
  Lemma rounds_inv ds : forall pre sys sys', dirs = pre ++ ds -> inv ds sys -> foldM (fun sys ij => xround ij.1 ij.2 sys) sys ds = Ok sys' ->
    inv [] sys' /\ T sys' ≡ₚ map (fun u => fold_left (fun u ij => mv ij.1 ij.2 u) ds u) (T sys) /\
    map xpDom sys' = map xpDom sys /\ map xpCap sys' = map xpCap sys /\ map xpGCap sys' = map xpGCap sys.
  Proof.
    induction ds as [|[i j] ds IH]; intros pre sys sys' Hpre HI H; cbn [foldM fst snd fold_left] in *.
    - injection H as <-. split; [done|]. rewrite map_id. done.
    - destruct (xround i j sys) as [s1| |] eqn:E; cbn [obind] in H; try discriminate.
      destruct (round_inv i j ds sys s1) as (I1 & T1 & D1 & C1 & G1); [by exists pre|done|done|].
      destruct (IH (pre ++ [(i, j)]) s1 sys') as (I2 & T2 & D2 & C2 & G2); [by rewrite <- app_assoc|done|done|].
      split; [done|]. split; [|by rewrite D2, C2, G2]. rewrite T2, (Permutation_map _ T1), map_map. done.
  Qed.
End round.
