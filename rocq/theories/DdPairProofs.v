(** The pairs that all processors together list: every pair within the cutoff of the list once in each order. *)
From Verif Require Import Base Containers Vec3 PlanModel OrthoModel BoxSpec DomainModel DomainSpec DomainProofs SpeciesModel SimProofs DistSpec EnergySpec EnergyProofs NbrModel NbrSpec NbrOffsets NbrProps ExchModel ExchSpec ExchUpdSpec ExchProofs ExchAtoms ExchElem ExchCopies ExchProps ExchLinks ExchUpdate DdPairModel DdPairSpec.
From Coq Require Import Reals Lra.
Local Open Scope nat_scope.

Lemma mem_at_some sys r p h : sys !! r = Some p -> mem_at sys (r, h) = xpMem p h.
Proof. intros E. unfold mem_at. cbn [fst snd]. by rewrite E. Qed.
Lemma negz_negz k : negz (negz k) = k.
Proof. destruct k as [k0 k1 k2]. unfold negz. cbn [vx vy vz]. f_equal; lia. Qed.
Lemma flip_flip t : flip (flip t) = t.
Proof. destruct t as [[a b] k]. unfold flip. cbn [fst snd]. by rewrite negz_negz. Qed.
Lemma translate_inj x k l : translate x k = translate x l -> k = l.
Proof. destruct k as [k0 k1 k2], l as [l0 l1 l2]. unfold translate. cbn [vx vy vz]. intros [= H1 H2 H3]. f_equal; apply eq_IZR; lra. Qed.
Lemma lattice_norm A x y k : normSq (vsub x (lattice_move A y k)) = normSq (vsub y (lattice_move A x (negz k))).
Proof. unfold normSq, vdot, vsub, lattice_move, negz. cbn [vx vy vz]. rewrite !opp_IZR. ring. Qed.
Lemma norm_sym x y : normSq (vsub x y) = normSq (vsub y x).
Proof. unfold normSq, vdot, vsub. cbn [vx vy vz]. ring. Qed.

Section core.
  Context (dims : vec3 Z) (s : vec3 R) (sys : list xproc) (own : owners).
  Context (HP : in_place dims s sys) (HL : linked sys own) (HF : off_faces sys).
  Let Hd : grid_ok dims := se_grid _ _ _ HP.

  (** Owner of an atom or ghost. *)
  Definition ow (a : nat * nat) : (nat * nat) * vec3 Z := if decide (a ∈ ghost_addrs sys) then own a else (a, V3 0 0 0)%Z.
  Lemma len_sys : length sys = n_proc dims.
  Proof. destruct (se_dom _ _ _ HP) as [H _]. by rewrite map_length in H. Qed.
  Lemma disj r p h : sys !! r = Some p -> h ∈ xpLocals p -> h ∈ xpGhosts p -> False.
  Proof. intros Hr H1 H2. pose proof (proj1 (Forall_forall _ _) (se_nodup _ _ _ HP) p (elem_of_list_lookup_2 _ _ _ Hr)) as N. apply NoDup_app in N as (_ & N & _). by apply (N h). Qed.
  Lemma in_local r p h : sys !! r = Some p -> h ∈ xpLocals p -> (r, h) ∈ local_addrs sys.
  Proof. intros Hr Hh. apply elem_local. exists p. done. Qed.
  Lemma in_ghost r p h : sys !! r = Some p -> h ∈ xpGhosts p -> (r, h) ∈ ghost_addrs sys.
  Proof. intros Hr Hh. apply elem_ghost. exists p. done. Qed.
  Lemma ow_local r p h : sys !! r = Some p -> h ∈ xpLocals p -> ow (r, h) = ((r, h), V3 0 0 0)%Z.
  Proof.
    intros Hr Hh. unfold ow. rewrite decide_False; [done|]. intros H. apply elem_ghost in H as (p' & E & Hg). cbn [fst snd] in *. rewrite Hr in E. injection E as <-. by apply (disj r p h).
  Qed.
  Lemma ow_ghost r p h : sys !! r = Some p -> h ∈ xpGhosts p -> ow (r, h) = own (r, h).
  Proof. intros Hr Hh. unfold ow. rewrite decide_True; [done|]. by eapply in_ghost. Qed.
  Lemma ow_spec r p h : sys !! r = Some p -> h ∈ xpLocals p ++ xpGhosts p ->
    (ow (r, h)).1 ∈ local_addrs sys /\ is_image (mem_at sys (ow (r, h)).1) (ow (r, h)).2 (xpMem p h).
  Proof.
    intros Hr [Hh|Hh]%elem_of_app.
    - rewrite (ow_local r p h Hr Hh). cbn [fst snd]. split; [by eapply in_local|]. rewrite (mem_at_some _ _ _ _ Hr). split; [done|]. split; [done|]. by rewrite translate_0.
    - rewrite (ow_ghost r p h Hr Hh). destruct (li_own _ _ HL (r, h) (in_ghost _ _ _ Hr Hh)) as [H1 H2]. rewrite (mem_at_some _ _ _ h Hr) in H2. done.
  Qed.
  Lemma held_addrs : held sys = map (fun a => (a.1, mem_at sys a)) (local_addrs sys).
  Proof.
    unfold held, local_addrs. induction (seq 0 (length sys)) as [|r l IH]; [done|]. cbn [flat_map]. rewrite map_app, IH. f_equal. destruct (sys !! r) as [p|] eqn:E; [|done].
    unfold locals. rewrite !map_map. apply map_ext. intros h. cbn [fst]. by rewrite (mem_at_some _ _ _ _ E).
  Qed.
  Lemma nodup_local : NoDup (local_addrs sys).
  Proof. pose proof (se_ids _ _ _ HP) as N. rewrite held_addrs, map_map in N. by apply NoDup_fmap_1 in N. Qed.
  Lemma ids_inj a b : a ∈ local_addrs sys -> b ∈ local_addrs sys -> xId (mem_at sys a) = xId (mem_at sys b) -> a = b.
  Proof.
    intros Ha Hb E. pose proof (se_ids _ _ _ HP) as N. rewrite held_addrs, map_map in N. cbn [snd] in N.
    apply elem_of_list_lookup in Ha as [i Hi]. apply elem_of_list_lookup in Hb as [j Hj].
    assert (i = j) as ->; [|congruence]. eapply (NoDup_lookup _ _ _ (xId (mem_at sys a)) N); rewrite list_lookup_fmap; [by rewrite Hi|]. rewrite Hj. cbn. by rewrite E.
  Qed.
  Lemma once_inj r p x y : sys !! r = Some p -> x ∈ xpLocals p ++ xpGhosts p -> y ∈ xpLocals p ++ xpGhosts p -> ow (r, x) = ow (r, y) -> x = y.
  Proof.
    intros Hr Hx Hy E. pose proof (proj1 (Forall_forall _ _) (se_once _ _ _ HP) p (elem_of_list_lookup_2 _ _ _ Hr)) as N. unfold locals, ghosts in N. rewrite <- map_app, map_map in N.
    destruct (ow_spec r p x Hr Hx) as (_ & I1 & _ & I2). destruct (ow_spec r p y Hr Hy) as (_ & J1 & _ & J2). rewrite E in I1, I2.
    apply elem_of_list_lookup in Hx as [i Hi]. apply elem_of_list_lookup in Hy as [j Hj].
    assert (i = j) as ->; [|congruence]. eapply (NoDup_lookup _ _ _ (xId (xpMem p x), xPos (xpMem p x)) N); rewrite list_lookup_fmap; [by rewrite Hi|]. rewrite Hj. cbn. congruence.
  Qed.
  Lemma rank_lt r p : sys !! r = Some p -> r < n_proc dims.
  Proof. intros Hr. rewrite <- len_sys. by eapply lookup_lt_Some. Qed.
  Lemma dom_r r p : sys !! r = Some p -> domain_of dims (Z.of_nat r) (xpDom p).
  Proof. intros Hr. eapply dom_at; [exact (se_dom _ _ _ HP)|done]. Qed.

  (** *** Owned regions *)
  Lemma owned_yy r p x : sys !! r = Some p -> owned (lower (xpDom p)) (upper (xpDom p)) x <-> forall i, i < 3 -> (0 <= yy dims i r x < 1)%R.
  Proof.
    intros Hr. assert (HB : forall i, i < 3 -> (domainBound (xpDom p) i 0 <= vget x i < domainBound (xpDom p) i 1)%R <-> (0 <= yy dims i r x < 1)%R).
    { intros i Hi. destruct (bounds dims Hd r _ i (dom_r r p Hr)) as [B0 B1]. rewrite B0, B1. unfold yy. pose proof (dd_pos dims Hd i) as Hp.
      pose proof (lt_div (vget x i) (IZR (vget (coords dims r) i)) _ Hp). pose proof (lt_div (vget x i) (IZR (vget (coords dims r) i) + 1) _ Hp). lra. }
    unfold owned, lower, upper. cbn [vx vy vz]. split.
    - intros (H0 & H1 & H2) i Hi. apply HB; [done|]. destruct i as [|[|[|]]]; [exact H0|exact H1|exact H2|lia].
    - intros H. split; [|split]; [apply (HB 0); [lia|apply H; lia]|apply (HB 1); [lia|apply H; lia]|apply (HB 2); [lia|apply H; lia]].
  Qed.
  Lemma local_owned r p h : sys !! r = Some p -> h ∈ xpLocals p -> owned (lower (xpDom p)) (upper (xpDom p)) (xPos (xpMem p h)).
  Proof.
    intros Hr Hh. pose proof (proj1 (Forall_forall _ _) HF p (elem_of_list_lookup_2 _ _ _ Hr)) as H. apply (proj1 (Forall_forall _ _) H). unfold locals. apply elem_of_map. eauto.
  Qed.
  Lemma ghost_not_owned r p h : sys !! r = Some p -> h ∈ xpGhosts p -> ~ owned (lower (xpDom p)) (upper (xpDom p)) (xPos (xpMem p h)).
  Proof.
    intros Hr Hh HO. destruct (ow_spec r p h Hr) as (Hl & _ & _ & E); [apply elem_of_app; by right|]. pose proof Hl as Hl'. apply elem_local in Hl' as (p2 & Hp2 & Hh2).
    set (b := (ow (r, h)).1) in *. set (k := (ow (r, h)).2) in *. pose proof (proj1 (owned_yy r p _ Hr) HO) as HO1. clear HO. rename HO1 into HO. pose proof (local_owned _ _ _ Hp2 Hh2) as HO2. pose proof (proj1 (owned_yy b.1 p2 _ Hp2) HO2) as HO3. clear HO2. rename HO3 into HO2.
    assert (Eb : xPos (mem_at sys b) = xPos (xpMem p2 b.2)) by (rewrite (surjective_pairing b) at 1; by rewrite (mem_at_some _ _ _ _ Hp2)).
    assert (X : r = b.1 /\ k = (V3 0 0 0)%Z).
    { apply (yy_determines dims Hd (xPos (xpMem p2 b.2))); [by eapply rank_lt|by eapply rank_lt|]. intros i Hi. specialize (HO i Hi). specialize (HO2 i Hi). rewrite E, Eb in HO. rewrite translate_0.
      rewrite yy_translate in HO by done. assert (EY : (yy dims i b.1 (xPos (xpMem p2 b.2)) = vget (xPos (xpMem p2 b.2)) i * IZR (vget dims i) - IZR (vget (coords dims b.1) i))%R) by done.
      set (z := (vget k i * vget dims i - vget (coords dims r) i + vget (coords dims b.1) i)%Z).
      assert (EZ : (IZR z = IZR (vget k i * vget dims i - vget (coords dims r) i) + IZR (vget (coords dims b.1) i))%R) by (unfold z; rewrite plus_IZR; done).
      assert (-1 < IZR z < 1)%R as [Z1 Z2] by lra. apply lt_IZR in Z1, Z2. assert (z = 0)%Z as Z0 by lia. rewrite Z0 in EZ. rewrite yy_translate by done. lra. }
    destruct X as [Er Ek]. assert (b = (r, b.2)) as Eb' by (rewrite (surjective_pairing b) at 1; by rewrite <- Er).
    rewrite <- Er, Hr in Hp2. injection Hp2 as <-.
    assert (Ehb : h = b.2); [|apply (disj r p b.2); [done|done|by rewrite <- Ehb]]. apply (once_inj r p); [done|apply elem_of_app; by right|apply elem_of_app; by left|].
    rewrite (ow_local r p b.2 Hr Hh2). rewrite (surjective_pairing (ow (r, h))). fold b k. by rewrite Ek, <- Eb'.
  Qed.
  Lemma holding_at cap r p : sys !! r = Some p -> length (xpLocals p) + length (xpGhosts p) <= cap ->
    holding cap (lower (xpDom p)) (upper (xpDom p)) (xpLocals p) (xpGhosts p) (fun h => xPos (xpMem p h)).
  Proof.
    intros Hr Hc. split; [exact (proj1 (Forall_forall _ _) (se_nodup _ _ _ HP) p (elem_of_list_lookup_2 _ _ _ Hr))|done| |].
    - intros a. by apply local_owned with (r := r).
    - intros a. by apply ghost_not_owned with (r := r).
  Qed.

  (** *** Coordinates *)
  Context (C : vec3 R -> vec3 R) (L : vec3 R) (rc : R) (A : nat -> vec3 R).
  Context (HC : spaced C L) (Hs : forall i, i < 3 -> vget s i = (rc / vget L i)%R) (Hrc : (0 < rc)%R).
  Context (HA : forall g k, C (translate g k) = lattice_move A (C g) k).
  Context (mk : Z -> Z -> bool) (Hmk : symmetric mk).
  Notation pos a := (xPos (mem_at sys a)).
  Notation ident a := (xId (mem_at sys a)).

  Lemma present r p x b k : sys !! r = Some p -> x ∈ xpLocals p -> b ∈ local_addrs sys ->
    (normSq (vsub (C (xPos (xpMem p x))) (C (translate (pos b) k))) < rc * rc)%R -> exists y, y ∈ xpLocals p ++ xpGhosts p /\ ow (r, y) = (b, k).
  Proof.
    intros Hr Hx Hb Hn. destruct HC as [HLp HCs].
    assert (HN : near (xpDom p) s (translate (pos b) k)).
    { assert (HIn : in_closed (xpDom p) (xPos (xpMem p x))).
      { pose proof (proj1 (Forall_forall _ _) (se_closed _ _ _ HP) p (elem_of_list_lookup_2 _ _ _ Hr)) as H. apply (proj1 (Forall_forall _ _) H). unfold locals. apply elem_of_map. eauto. }
      intros i Hi. specialize (HIn i Hi). specialize (HCs (xPos (xpMem p x)) (translate (pos b) k) i Hi).
      assert (HLi : (0 < vget L i)%R) by (destruct HLp as (? & ? & ?); destruct i as [|[|[|]]]; [done|done|done|lia]).
      assert (HAb : (Rabs ((vget (xPos (xpMem p x)) i - vget (translate (pos b) k) i) * vget L i) < rc)%R).
      { rewrite <- (Rabs_pos_eq rc) by lra. apply Rsqr_lt_abs_0. unfold Rsqr. lra. }
      apply Rabs_def2 in HAb as [A1 A2]. rewrite (Hs i Hi).
      assert (E : (rc = rc / vget L i * vget L i)%R) by (field; lra). set (z := (rc / vget L i)%R) in *. rewrite E in A1, A2. rewrite <- Ropp_mult_distr_l_reverse in A2.
      apply Rmult_lt_reg_r in A1; [|done]. apply Rmult_lt_reg_r in A2; [|done]. lra. }
    assert (Hu : (b.1, mem_at sys b) ∈ held sys) by (rewrite held_addrs; apply elem_of_map; eauto).
    destruct (se_present _ _ _ HP r p Hr _ k Hu HN) as (c & Hc & I1 & _ & I3). cbn [snd] in I1, I3. unfold locals, ghosts in Hc. rewrite <- map_app in Hc. apply elem_of_map in Hc as (y & -> & Hy).
    exists y. split; [done|]. destruct (ow_spec r p y Hr Hy) as (Hl & J1 & _ & J3). rewrite (surjective_pairing (ow (r, y))).
    assert ((ow (r, y)).1 = b) as Eb by (apply ids_inj; [done|done|congruence]). rewrite Eb in *. f_equal. apply (translate_inj (pos b)). congruence.
  Qed.
  Lemma dist_ow r p x y : sys !! r = Some p -> x ∈ xpLocals p -> y ∈ xpLocals p ++ xpGhosts p ->
    interacts rc (fun h => C (xPos (xpMem p h))) (fun x y => mk (xId (xpMem p x)) (xId (xpMem p y))) x y <->
    ((normSq (vsub (C (pos (r, x))) (C (translate (pos (ow (r, y)).1) (ow (r, y)).2))) < rc * rc)%R /\ mk (ident (r, x)) (ident (ow (r, y)).1) = false).
  Proof.
    intros Hr Hx Hy. destruct (ow_spec r p y Hr Hy) as (_ & I1 & _ & I3). rewrite (mem_at_some _ _ _ _ Hr). rewrite <- I3, <- I1. unfold interacts, NbrSpec.within. by rewrite norm_sym.
  Qed.

  (** *** All pairs *)
  Definition near_pair (t : triple) : Prop :=
    t.1.1 ∈ local_addrs sys /\ t.1.2 ∈ local_addrs sys /\ (t.1.1 <> t.1.2 \/ t.2 <> V3 0 0 0)%Z /\
    mk (ident t.1.1) (ident t.1.2) = false /\ (normSq (vsub (C (pos t.1.1)) (C (translate (pos t.1.2) t.2))) < rc * rc)%R.
  Lemma near_flip t : near_pair t -> near_pair (flip t).
  Proof.
    intros (H1 & H2 & H3 & H4 & H5). destruct t as [[a b] k]. unfold near_pair, flip in *. cbn [fst snd] in *. split; [done|]. split; [done|]. split.
    - destruct H3 as [H3|H3]; [left; congruence|right]. intros E. apply H3. rewrite <- (negz_negz k), E. done.
    - split; [by rewrite Hmk|]. rewrite HA in H5 |- *. by rewrite lattice_norm, negz_negz.
  Qed.
  Definition trip (r : nat) (xy : nat * nat) : triple := ((r, xy.1), (ow (r, xy.2)).1, (ow (r, xy.2)).2).

  Context (rev : bool) (cutoffs : vec3 R) (n : Z) (ls : list (list (nat * nat))).
  Context (HLs : Forall2 (listed_on rev C cutoffs rc n mk) sys ls).
  Context (Hw : rev = true -> (0 < vx cutoffs /\ 0 < vy cutoffs /\ 0 < vz cutoffs)%R /\ Forall (fun p => wide_enough (lower (xpDom p)) (upper (xpDom p)) cutoffs n) sys).

  (** Ranks and pairs. *)
  Definition jobs : list (nat * (nat * nat)) := flat_map (fun r => match ls !! r with Some l => map (pair r) l | None => [] end) (seq 0 (length sys)).
  (** Does the loop of this processor count for both orders of the pair? *)
  Definition both (j : nat * (nat * nat)) : bool := rev || bool_decide ((j.1, j.2.2) ∈ local_addrs sys).
  Definition contr (j : nat * (nat * nat)) : list triple := trip j.1 j.2 :: (if both j then [flip (trip j.1 j.2)] else []).
  Definition seen : list triple := flat_map contr jobs.

  Lemma job_elem r xy : (r, xy) ∈ jobs <-> exists p l, sys !! r = Some p /\ ls !! r = Some l /\ listed_on rev C cutoffs rc n mk p l /\ xy ∈ l.
  Proof.
    unfold jobs. rewrite elem_of_flat_map. pose proof (Forall2_length _ _ _ HLs) as E. split.
    - intros (r' & _ & H). destruct (ls !! r') as [l|] eqn:El; [|by apply elem_of_nil in H]. apply elem_of_map in H as (xy' & Ej & H). injection Ej as -> ->.
      destruct (Forall2_lookup_r _ _ _ _ _ HLs El) as (p & Hp & Hl). eauto 10.
    - intros (p & l & Hp & Hl & _ & H). exists r. split; [apply elem_of_seq; apply lookup_lt_Some in Hp; lia|]. rewrite Hl. apply elem_of_map. eauto.
  Qed.
  Lemma job_sound r x y : (r, (x, y)) ∈ jobs -> exists p l, sys !! r = Some p /\ listed_on rev C cutoffs rc n mk p l /\ (x, y) ∈ l /\ x ∈ xpLocals p /\ y ∈ xpLocals p ++ xpGhosts p /\ x <> y /\
    interacts rc (fun h => C (xPos (xpMem p h))) (fun x y => mk (xId (xpMem p x)) (xId (xpMem p y))) x y /\ ls !! r = Some l.
  Proof.
    intros (p & l & Hp & Hl & HC' & H)%job_elem. exists p, l. destruct (co_sound _ _ _ _ _ _ HC' x y H) as (X1 & X2 & X3 & X4). done.
  Qed.
  Lemma trip_near r xy : (r, xy) ∈ jobs -> near_pair (trip r xy).
  Proof.
    destruct xy as [x y]. intros (p & l & Hp & _ & _ & Hx & Hy & Hne & HI & _)%job_sound. apply (dist_ow r p x y Hp Hx Hy) in HI as [HI1 HI2]. unfold near_pair, trip. cbn [fst snd].
    split; [by eapply in_local|]. split; [by apply (ow_spec r p y Hp Hy)|]. split; [|done].
    destruct (decide ((r, x) = (ow (r, y)).1)) as [E|]; [|by left]. right. intros Ek. apply Hne. apply (once_inj r p); [done|apply elem_of_app; by left|done|].
    rewrite (ow_local r p x Hp Hx), (surjective_pairing (ow (r, y))), <- E, Ek. done.
  Qed.
  Lemma trip_inj j j' : j ∈ jobs -> j' ∈ jobs -> trip j.1 j.2 = trip j'.1 j'.2 -> j = j'.
  Proof.
    destruct j as [r [x y]], j' as [r' [x' y']]. intros (p & l & Hp & _ & _ & Hx & Hy & _)%job_sound (p' & l' & Hp' & _ & _ & Hx' & Hy' & _)%job_sound. unfold trip. cbn [fst snd]. intros E.
    injection E as E1 E2 E3 E4. subst r' x'. assert (p' = p) as -> by congruence. assert (y = y') as ->; [|done]. apply (once_inj r p); [done..|].
    rewrite (surjective_pairing (ow (r, y))), (surjective_pairing (ow (r, y'))). congruence.
  Qed.

  Lemma widths r p : sys !! r = Some p -> forall i, i < 3 -> (domainBound (xpDom p) i 0 = IZR (vget (coords dims r) i) / IZR (vget dims i) /\ domainBound (xpDom p) i 1 = (IZR (vget (coords dims r) i) + 1) / IZR (vget dims i))%R.
  Proof. intros Hr i Hi. apply (bounds dims Hd r). by apply dom_r. Qed.
  (** Reverse communication: of the two processors exactly one lists the pair. *)
  Lemma exactly_one r p l r' p' l' x y x' y' : rev = true -> sys !! r = Some p -> sys !! r' = Some p' -> listed_on rev C cutoffs rc n mk p l -> listed_on rev C cutoffs rc n mk p' l' ->
    x ∈ xpLocals p -> y ∈ xpGhosts p -> x' ∈ xpLocals p' -> y' ∈ xpGhosts p' -> (ow (r, y)).1 = (r', x') -> ow (r', y') = ((r, x), negz (ow (r, y)).2) ->
    interacts rc (fun h => C (xPos (xpMem p h))) (fun x y => mk (xId (xpMem p x)) (xId (xpMem p y))) x y ->
    ((x, y) ∈ l /\ (x', y') ∉ l') \/ ((x', y') ∈ l' /\ (x, y) ∉ l).
  Proof.
    intros Er Hp Hp' HCl HCl' Hx Hy Hx' Hy' E E' HI. destruct (Hw Er) as [Hcut Hwide]. rewrite Er in HCl, HCl'.
    assert (HyA : y ∈ xpLocals p ++ xpGhosts p) by (apply elem_of_app; by right). assert (HyA' : y' ∈ xpLocals p' ++ xpGhosts p') by (apply elem_of_app; by right).
    destruct (ow_spec r p y Hp HyA) as (_ & _ & _ & Py). destruct (ow_spec r' p' y' Hp' HyA') as (_ & _ & _ & Py'). rewrite E' in Py'. cbn [fst snd] in Py'. rewrite E in Py.
    set (k := (ow (r, y)).2) in *. rewrite (mem_at_some _ _ _ _ Hp') in Py. rewrite (mem_at_some _ _ _ _ Hp) in Py'.
    assert (HI' : interacts rc (fun h => C (xPos (xpMem p' h))) (fun x y => mk (xId (xpMem p' x)) (xId (xpMem p' y))) x' y').
    { apply (dist_ow r' p' x' y' Hp' Hx' HyA'). apply (dist_ow r p x y Hp Hx HyA) in HI as [HI1 HI2]. rewrite E'. cbn [fst snd]. rewrite E in HI1, HI2. fold k in HI1. split; [|by rewrite Hmk].
      rewrite HA in HI1 |- *. by rewrite lattice_norm, negz_negz. }
    set (M := (V3 (vx k * vx dims + vget (coords dims r') 0 - vget (coords dims r) 0) (vy k * vy dims + vget (coords dims r') 1 - vget (coords dims r) 1) (vz k * vz dims + vget (coords dims r') 2 - vget (coords dims r) 2))%Z).
    pose proof (widths r p Hp) as B. pose proof (widths r' p' Hp') as B'.
    pose proof (dd_pos dims Hd 0) as D0. pose proof (dd_pos dims Hd 1) as D1. pose proof (dd_pos dims Hd 2) as D2. cbn [vget] in D0, D1, D2.
    destruct (B 0 ltac:(lia)) as [B00 B01]. destruct (B 1 ltac:(lia)) as [B10 B11]. destruct (B 2 ltac:(lia)) as [B20 B21].
    destruct (B' 0 ltac:(lia)) as [B00' B01']. destruct (B' 1 ltac:(lia)) as [B10' B11']. destruct (B' 2 ltac:(lia)) as [B20' B21'].
    cbn [vget] in B00, B01, B10, B11, B20, B21, B00', B01', B10', B11', B20', B21'.
    eapply (nbr_reverse_two_processors (lower (xpDom p)) (upper (xpDom p)) (lower (xpDom p')) (upper (xpDom p')) cutoffs n (xpLocals p) (xpGhosts p) (xpLocals p') (xpGhosts p')
      (fun h => xPos (xpMem p h)) (fun h => xPos (xpMem p' h)) _ _ l l' x y y' x' M).
    - exact (proj1 (Forall_forall _ _) Hwide p (elem_of_list_lookup_2 _ _ _ Hp)).
    - exact Hcut.
    - unfold vsub, lower, upper. cbn [vx vy vz]. rewrite B00, B01, B10, B11, B20, B21, B00', B01', B10', B11', B20', B21'. f_equal; field; lra.
    - intros h Hh. by apply local_owned with (r := r).
    - intros h Hh. by apply ghost_not_owned with (r := r).
    - exact HCl.
    - exact HCl'.
    - done.
    - done.
    - done.
    - done.
    - done.
    - done.
    - rewrite Py'. unfold vsub, vadd, lower, upper, translate, negz, M. cbn [vx vy vz vget]. rewrite B00, B01, B10, B11, B20, B21, B00', B10', B20'. rewrite !minus_IZR, !plus_IZR, !mult_IZR, !opp_IZR. f_equal; field; lra.
    - rewrite Py. unfold vsub, vadd, lower, upper, translate, negz, M. cbn [vx vy vz vget]. rewrite B00, B01, B10, B11, B20, B21, B00', B10', B20'. rewrite !minus_IZR, !plus_IZR, !mult_IZR. f_equal; field; lra.
  Qed.
  Lemma local_elem r p h : sys !! r = Some p -> (r, h) ∈ local_addrs sys <-> h ∈ xpLocals p.
  Proof. intros Hp. rewrite (elem_local sys). split; [|by exists p]. intros (p' & E & H). cbn [fst snd] in *. congruence. Qed.
  Lemma exclusive j j' : j ∈ jobs -> j' ∈ jobs -> both j' = true -> trip j.1 j.2 = flip (trip j'.1 j'.2) -> False.
  Proof.
    destruct j as [r [x y]], j' as [r' [x' y']]. intros (p & l & Hp & HCl & Hxy & Hx & Hy & Hne & HI & Hl)%job_sound (p' & l' & Hp' & HCl' & Hxy' & Hx' & Hy' & Hne' & HI' & Hl')%job_sound Hb.
    unfold trip, flip. cbn [fst snd]. intros E. injection E as E1 E2 E3.
    apply elem_of_app in Hy as [Hy|Hy].
    - (* two local atoms *)
      rewrite (ow_local r p y Hp Hy) in E2, E3. cbn [fst snd] in E2, E3. injection E2 as <- <-. assert (p' = p) as -> by congruence. assert (l' = l) as -> by congruence.
      assert (y' = x) as ->.
      { apply (once_inj r p); [done|done|apply elem_of_app; by left|]. rewrite (ow_local r p x Hp Hx), (surjective_pairing (ow (r, y'))), <- E1. f_equal. rewrite <- (negz_negz (ow (r, y')).2), <- E3. done. }
      destruct (co_local _ _ _ _ _ _ HCl x y Hx Hy Hne HI) as [[_ X]|[_ X]]; by apply X.
    - apply elem_of_app in Hy' as [Hy'|Hy'].
      + rewrite (ow_local r' p' y' Hp' Hy') in E1, E3. cbn [fst snd] in E1, E3. injection E1 as -> ->. assert (p' = p) as -> by congruence.
        assert (y = x') as ->; [|by apply (disj r' p x')]. apply (once_inj r' p); [done|apply elem_of_app; by right|apply elem_of_app; by left|].
        rewrite (ow_local r' p x' Hp Hx'), (surjective_pairing (ow (r', y))), E2, E3. done.
      + assert (Er : rev = true).
        { unfold both in Hb. apply orb_true_iff in Hb as [Hb|Hb]; [done|]. apply bool_decide_eq_true_1 in Hb. cbn [fst snd] in Hb. apply (local_elem r' p' y' Hp') in Hb. exfalso. by apply (disj r' p' y'). }
        destruct (exactly_one r p l r' p' l' x y x' y' Er Hp Hp' HCl HCl' Hx Hy Hx' Hy' E2) as [[_ X]|[_ X]]; [|done|by apply X|by apply X].
        rewrite (surjective_pairing (ow (r', y'))), <- E1. f_equal. by rewrite E3, negz_negz.
  Qed.
  Lemma covers t : near_pair t -> exists j, j ∈ jobs /\ t ∈ contr j.
  Proof.
    destruct t as [[a b] k]. intros (Ha & Hb & Hne & Hm & Hr). cbn [fst snd] in *. pose proof Ha as Ha'. pose proof Hb as Hb'. apply elem_local in Ha' as (p & Hp & Hx), Hb' as (p' & Hp' & Hz).
    destruct a as [r x], b as [r' z]. cbn [fst snd] in *.
    destruct (Forall2_lookup_l _ _ _ _ _ HLs Hp) as (l & Hl & HCl). destruct (Forall2_lookup_l _ _ _ _ _ HLs Hp') as (l' & Hl' & HCl').
    destruct (present r p x (r', z) k Hp Hx Hb) as (y & Hy & Ey); [by rewrite <- (mem_at_some _ _ _ _ Hp)|].
    assert (HI : interacts rc (fun h => C (xPos (xpMem p h))) (fun x y => mk (xId (xpMem p x)) (xId (xpMem p y))) x y) by (apply (dist_ow r p x y Hp Hx Hy); by rewrite Ey).
    assert (hit : (x, y) ∈ l -> exists j, j ∈ jobs /\ ((r, x), (r', z), k) ∈ contr j).
    { intros Hxy. exists (r, (x, y)). split; [apply job_elem; eauto 10|]. unfold contr. apply elem_of_cons. left. cbn [fst snd]. unfold trip. cbn [fst snd]. by rewrite Ey. }
    pose proof Hy as HyA. apply elem_of_app in Hy as [Hy|Hy].
    - rewrite (ow_local r p y Hp Hy) in Ey. injection Ey as <- <- <-. assert (x <> y) as Hxy by (destruct Hne as [Hne|Hne]; [congruence|done]).
      destruct (co_local _ _ _ _ _ _ HCl x y Hx Hy Hxy HI) as [[X _]|[X _]]; [by apply hit|].
      exists (r, (y, x)). split; [apply job_elem; eauto 10|]. unfold contr, both. cbn [fst snd]. rewrite (bool_decide_eq_true_2 _ Ha), orb_true_r. apply elem_of_list_further, elem_of_list_singleton.
      unfold flip, trip. cbn [fst snd]. by rewrite (ow_local r p x Hp Hx).
    - destruct (decide (rev = true)) as [Er|Er]; [|apply hit; apply (co_ghost _ _ _ _ _ _ HCl x y Hx Hy HI); left; by apply not_true_is_false].
      destruct (present r' p' z (r, x) (negz k) Hp' Hz Ha) as (x' & Hx' & Ex').
      { rewrite <- (mem_at_some _ _ _ _ Hp'). rewrite HA in Hr |- *. by rewrite lattice_norm, negz_negz. }
      pose proof Hx' as HxA'. apply elem_of_app in Hx' as [Hx'|Hx'].
      + exfalso. rewrite (ow_local r' p' x' Hp' Hx') in Ex'. assert (r' = r /\ x' = x /\ (V3 0 0 0)%Z = negz k) as (<- & <- & Ek) by (split; [congruence|split; congruence]). assert (p' = p) as -> by congruence.
        assert (k = V3 0 0 0)%Z as -> by (rewrite <- (negz_negz k), <- Ek; done).
        assert (y = z) as ->; [|by apply (disj r' p z)]. apply (once_inj r' p); [done|done|apply elem_of_app; by left|]. by rewrite (ow_local r' p z Hp Hz), Ey.
      + destruct (exactly_one r p l r' p' l' x y z x' Er) as [[X _]|[X _]]; try done; [by rewrite Ey|by rewrite Ey|by apply hit|].
        exists (r', (z, x')). split; [apply job_elem; eauto 10|]. unfold contr, both. rewrite Er. cbn [orb]. apply elem_of_list_further, elem_of_list_singleton. cbn [fst snd]. unfold flip, trip. cbn [fst snd].
        rewrite Ex'. cbn [fst snd]. by rewrite negz_negz.
  Qed.
  Lemma jobs_nodup : NoDup jobs.
  Proof.
    unfold jobs. apply NoDup_flat_map; [apply NoDup_seq| |].
    - intros r _. destruct (ls !! r) as [l|] eqn:El; [|apply NoDup_nil_2]. apply (NoDup_fmap_2 (pair r)). destruct (Forall2_lookup_r _ _ _ _ _ HLs El) as (p & _ & Hl). apply Hl.
    - intros r r' z _ _ H H'. destruct (ls !! r) as [l|]; [|by apply elem_of_nil in H]. destruct (ls !! r') as [l'|]; [|by apply elem_of_nil in H'].
      apply elem_of_map in H as (? & -> & _). apply elem_of_map in H' as (? & E & _). congruence.
  Qed.

  Theorem seen_spec : NoDup seen /\ forall t, t ∈ seen <-> near_pair t.
  Proof.
    split.
    - unfold seen. apply NoDup_flat_map; [exact jobs_nodup| |].
      + intros j Hj. unfold contr. destruct (both j) eqn:Hb; [|apply NoDup_singleton]. apply NoDup_cons. split; [|apply NoDup_singleton]. rewrite elem_of_list_singleton. intros E. by apply (exclusive j j Hj Hj Hb E).
      + intros j j' t Hj Hj' H H'. unfold contr in H, H'. apply elem_of_cons in H as [->|H].
        * apply elem_of_cons in H' as [E|H']; [by apply trip_inj|]. destruct (both j') eqn:Hb; [|by apply elem_of_nil in H']. apply elem_of_list_singleton in H'. exfalso. by apply (exclusive j j').
        * destruct (both j) eqn:Hb; [|by apply elem_of_nil in H]. apply elem_of_list_singleton in H as ->. apply elem_of_cons in H' as [E|H'].
          { exfalso. by apply (exclusive j' j). }
          destruct (both j') eqn:Hb'; [|by apply elem_of_nil in H']. apply elem_of_list_singleton in H'. apply trip_inj; [done|done|]. by rewrite <- (flip_flip (trip j.1 j.2)), H', flip_flip.
    - intros t. unfold seen. rewrite elem_of_flat_map. split.
      + intros (j & Hj & H). unfold contr in H. destruct j as [r xy]. pose proof (trip_near r xy Hj) as HN. cbn [fst snd] in H. apply elem_of_cons in H as [->|H]; [done|].
        destruct (both _); [|by apply elem_of_nil in H]. apply elem_of_list_singleton in H as ->. by apply near_flip.
      + intros (j & Hj & H)%covers. eauto.
  Qed.
End core.
