(** What all processors together compute from their pair lists. *)
From Verif Require Import Base Containers Vec3 PlanModel OrthoModel BoxSpec DomainModel DomainSpec DomainProofs SpeciesModel SimProofs DistSpec EnergySpec EnergyProofs NbrModel NbrSpec NbrOffsets NbrProps PairListProps ExchModel ExchSpec ExchUpdSpec ExchProofs ExchStart ExchProps ExchLinks ExchUpdate DdPairModel DdPairSpec DdPairProofs DdPairRuns.
From Coq Require Import Reals Lra.
Local Open Scope nat_scope.

Lemma sum_at {A} (f : A -> R) (l : list A) : sum_over l f = sum_over (seq 0 (length l)) (fun r => match l !! r with Some x => f x | None => 0%R end).
Proof.
  induction l as [|x l IH]; [done|]. cbn [length]. rewrite <- cons_seq, sum_cons. rewrite sum_cons. cbn [lookup list_lookup]. rewrite <- seq_shift, sum_map, IH. done.
Qed.
Lemma fold_right_sum l : fold_right Rplus 0%R l = sum_over l (fun x => x).
Proof. induction l as [|x l IH]; [done|]. cbn [fold_right]. by rewrite IH, sum_cons. Qed.
Lemma fold_right_IZR l : IZR (fold_right Z.add 0%Z l) = sum_over l IZR.
Proof. induction l as [|x l IH]; [done|]. cbn [fold_right]. by rewrite plus_IZR, IH, sum_cons. Qed.
Lemma move_zero A x : lattice_move A x (V3 0 0 0)%Z = x.
Proof. destruct x as [x0 x1 x2]. unfold lattice_move. cbn [vx vy vz]. f_equal; ring. Qed.
Lemma same_lookup sys sys2 r p : same_lists sys sys2 -> sys !! r = Some p -> exists q, sys2 !! r = Some q /\ xpDom q = xpDom p /\ xpLocals q = xpLocals p /\ xpGhosts q = xpGhosts p.
Proof. intros H Hr. destruct (Forall2_lookup_l _ _ _ _ _ H Hr) as (q & Hq & ? & ? & ? & _). eauto 6. Qed.
Lemma same_local sys sys2 : same_lists sys sys2 -> local_addrs sys2 = local_addrs sys.
Proof.
  intros H. unfold local_addrs. pose proof (Forall2_length _ _ _ H) as E. rewrite <- E. clear E. induction (seq 0 (length sys)) as [|r l IH]; [done|]. cbn [flat_map]. rewrite IH. f_equal.
  destruct (sys !! r) as [p|] eqn:Hr.
  - destruct (same_lookup _ _ _ _ H Hr) as (q & -> & _ & -> & _). done.
  - assert (sys2 !! r = None) as ->; [|done]. apply lookup_ge_None. rewrite <- (Forall2_length _ _ _ H). by apply lookup_ge_None.
Qed.

Section total.
  Context (dims : vec3 Z) (s : vec3 R) (sys : list xproc) (own : owners).
  Context (HP : in_place dims s sys) (HL : linked sys own) (HF : off_faces sys).
  Context (C : vec3 R -> vec3 R) (L : vec3 R) (rc : R) (A : nat -> vec3 R).
  Context (HC : spaced C L) (Hs : forall i, i < 3 -> vget s i = (rc / vget L i)%R) (Hrc : (0 < rc)%R).
  Context (HA : forall g k, C (translate g k) = lattice_move A (C g) k).
  Context (mk : Z -> Z -> bool) (Hmk : symmetric mk).
  Context (rev : bool) (cutoffs : vec3 R) (n : Z) (ls : list (list (nat * nat))).
  Context (HLs : Forall2 (listed_on rev C cutoffs rc n mk) sys ls).
  Context (Hw : rev = true -> (0 < vx cutoffs /\ 0 < vy cutoffs /\ 0 < vz cutoffs)%R /\ Forall (fun p => wide_enough (lower (xpDom p)) (upper (xpDom p)) cutoffs n) sys).
  Context (cut2 : Z -> Z -> R) (fo u : R -> Z -> Z -> R).
  Context (Hc2 : symmetric cut2) (Hfo : symmetric3 fo) (Hu : symmetric3 u).
  Context (lists : list dplist) (HB : Forall2 built lists ls).
  Context (sys2 : list xproc) (c d : R) (HFo : follows A own sys sys2) (HM : moved_little C d sys sys2).
  Context (Hc : (0 <= c)%R) (Hd : (0 <= d)%R) (Hcd : (c + 2 * d <= rc)%R) (Hcut : forall a b, (cut2 a b <= c * c)%R).
  Notation jobs := (jobs sys ls).
  Notation ow := (ow sys own).
  Notation trip := (trip sys own).
  Notation contr := (contr sys own rev).
  Notation both := (both sys rev).
  Notation seen := (seen sys own rev ls).
  Notation sep := (separation A sys2).

  Lemma spec : NoDup seen /\ forall t, t ∈ seen <-> near_pair sys C rc mk t.
  Proof. exact (seen_spec dims s sys own HP HL HF C L rc A HC Hs Hrc HA mk Hmk rev cutoffs n ls HLs Hw). Qed.

  (** *** Pairs that interact now *)
  Definition close (t : triple) : bool := if Rlt_dec (normSq (sep t)) (cut2 (type_of sys2 t.1.1) (type_of sys2 t.1.2)) then true else false.
  Definition now : list triple := List.filter close seen.
  Lemma norm_le x y : (0 <= y)%R -> (normSq x <= y * y)%R -> (sqrt (normSq x) <= y)%R.
  Proof. intros Hy H. rewrite <- (sqrt_Rsqr y Hy). unfold Rsqr. by apply sqrt_le_1_alt. Qed.
  Lemma now_near t : t.1.1 ∈ local_addrs sys -> t.1.2 ∈ local_addrs sys -> (normSq (sep t) < c * c)%R ->
    (normSq (vsub (C (xPos (mem_at sys t.1.1))) (C (translate (xPos (mem_at sys t.1.2)) t.2))) < rc * rc)%R.
  Proof.
    intros H1 H2 Hn. rewrite HA. set (x := C (xPos (mem_at sys t.1.1))). set (y := C (xPos (mem_at sys t.1.2))). pose proof (HM _ H1) as M1. pose proof (HM _ H2) as M2. fold x in M1. fold y in M2.
    unfold separation in Hn. set (x2 := xPos (mem_at sys2 t.1.1)) in *. set (y2 := xPos (mem_at sys2 t.1.2)) in *.
    set (e := vsub x2 (lattice_move A y2 t.2)) in *.
    assert (E : vsub x (lattice_move A y t.2) = vadd (vadd e (vsub x x2)) (vsub y2 y)) by (unfold e, vsub, vadd, lattice_move; cbn [vx vy vz]; f_equal; ring).
    rewrite E. pose proof (norm_triangle (vadd e (vsub x x2)) (vsub y2 y)) as T1. pose proof (norm_triangle e (vsub x x2)) as T2. rewrite norm_sym in M1.
    apply norm_le in M1, M2; [|done..].
    assert (Hlt : (sqrt (normSq e) < c)%R). { apply Rsqr_incrst_0; [|apply sqrt_pos|done]. unfold Rsqr. rewrite sqrt_sqrt by apply normSq_ge0. done. }
    assert (Hs' : (sqrt (normSq (vadd (vadd e (vsub x x2)) (vsub y2 y))) < rc)%R) by lra. apply Rsqr_incrst_1 in Hs'; [|apply sqrt_pos|lra]. unfold Rsqr in Hs'. rewrite sqrt_sqrt in Hs' by apply normSq_ge0. done.
  Qed.
  Theorem now_every : every_pair A mk cut2 sys2 now.
  Proof.
    destruct spec as [S1 S2]. split; [unfold now; apply NoDup_ListNoDup, List.NoDup_filter, NoDup_ListNoDup; done|]. intros t. unfold now. rewrite elem_of_list_In, List.filter_In, <- elem_of_list_In, S2. unfold near_pair, interacting. rewrite (same_local _ _ (fl_lists _ _ _ _ HFo)).
    unfold close. split.
    - intros [(H1 & H2 & H3 & H4 & H5) H6]. split; [done|]. split; [done|]. split; [done|]. destruct (fl_atoms _ _ _ _ HFo t.1.1) as [-> _]; [by left|]. destruct (fl_atoms _ _ _ _ HFo t.1.2) as [-> _]; [by left|]. split; [done|]. by destruct (Rlt_dec _ _).
    - intros (H1 & H2 & H3 & H4 & H5). destruct (fl_atoms _ _ _ _ HFo t.1.1) as [E1 _]; [by left|]. destruct (fl_atoms _ _ _ _ HFo t.1.2) as [E2 _]; [by left|]. rewrite E1, E2 in H4. split; [|by destruct (Rlt_dec _ _)].
      split; [done|]. split; [done|]. split; [done|]. split; [done|]. apply now_near; [done..|]. pose proof (Hcut (type_of sys2 t.1.1) (type_of sys2 t.1.2)). lra.
  Qed.

  (** *** One pair of a list *)
  Lemma at_ow r p q h : sys !! r = Some p -> sys2 !! r = Some q -> h ∈ xpLocals p ++ xpGhosts p ->
    xPos (xpMem q h) = lattice_move A (xPos (mem_at sys2 (ow (r, h)).1)) (ow (r, h)).2 /\ xType (xpMem q h) = type_of sys2 (ow (r, h)).1.
  Proof.
    intros Hr Hq Hh. pose proof (mem_at_some _ _ _ h Hq) as Eq. destruct (ow_spec dims s sys own HP HL r p h Hr Hh) as (Hl & _ & It & _). apply elem_of_app in Hh as [Hh|Hh].
    - rewrite (ow_local dims s sys own HP r p h Hr Hh). cbn [fst snd]. rewrite move_zero. unfold type_of. by rewrite Eq.
    - rewrite (ow_ghost sys own r p h Hr Hh) in *. pose proof (in_ghost sys r p h Hr Hh) as Hg. rewrite <- Eq. split; [by apply (fl_pos _ _ _ _ HFo)|]. unfold type_of.
      destruct (fl_atoms _ _ _ _ HFo (r, h)) as [_ ->]; [by right|]. destruct (fl_atoms _ _ _ _ HFo (own (r, h)).1) as [_ ->]; [by left|]. rewrite <- It. by rewrite (mem_at_some _ _ _ _ Hr).
  Qed.
  Lemma job_dr r q x y : (r, (x, y)) ∈ jobs -> sys2 !! r = Some q ->
    p_dr (xpMem q) (x, y) = sep (trip r (x, y)) /\ xType (xpMem q x) = type_of sys2 (trip r (x, y)).1.1 /\ xType (xpMem q y) = type_of sys2 (trip r (x, y)).1.2.
  Proof.
    intros HJ Hq. destruct (job_sound _ _ _ _ _ _ _ _ HLs _ _ _ HJ) as (p & l & Hr & _ & _ & Hx & Hy & _). destruct (at_ow r p q y Hr Hq Hy) as [E1 E2]. unfold p_dr, separation, DdPairProofs.trip. cbn [fst snd]. rewrite E1, E2. unfold type_of. by rewrite (mem_at_some _ _ _ _ Hq).
  Qed.
  Lemma sep_flip t : sep (flip t) = vscale (-1)%R (vsub (lattice_move A (xPos (mem_at sys2 t.1.1)) (V3 0 0 0)%Z) (lattice_move A (xPos (mem_at sys2 t.1.2)) t.2)).
  Proof. unfold separation, flip. cbn [fst snd]. unfold vscale, vsub, lattice_move, negz. cbn [vx vy vz]. rewrite !opp_IZR. f_equal; ring. Qed.
  Lemma sep_neg t : sep (flip t) = neg3 (sep t).
  Proof. rewrite sep_flip, move_zero. unfold separation, vscale, neg3. cbn [vx vy vz]. f_equal; ring. Qed.
  Lemma norm_flip t : normSq (sep (flip t)) = normSq (sep t).
  Proof. rewrite sep_neg. unfold normSq, vdot, neg3. cbn [vx vy vz]. ring. Qed.
  Lemma close_flip t : close (flip t) = close t.
  Proof. unfold close. rewrite norm_flip. unfold flip. cbn [fst snd]. by rewrite (Hc2 (type_of sys2 t.1.2)). Qed.
  Lemma u_flip t : pair_u u A sys2 (flip t) = pair_u u A sys2 t.
  Proof. unfold pair_u. rewrite norm_flip. unfold flip. cbn [fst snd]. apply Hu. Qed.
  Lemma f_flip t : pair_f fo A sys2 (flip t) = neg3 (pair_f fo A sys2 t).
  Proof. unfold pair_f. rewrite norm_flip, sep_neg. unfold flip. cbn [fst snd]. rewrite (Hfo _ (type_of sys2 t.1.2)). unfold vscale, neg3. cbn [vx vy vz]. f_equal; ring. Qed.
  Lemma w_flip i j t : pair_w fo A sys2 i j (flip t) = pair_w fo A sys2 i j t.
  Proof.
    unfold pair_w. rewrite f_flip, sep_neg. assert (H : forall v k, vget (neg3 v) k = (- vget v k)%R) by (intros v k; destruct k as [|[|]]; done). rewrite !H. ring.
  Qed.

  (** *** Sums over the lists *)
  Lemma jobs_sum (F : nat -> nat * nat -> R) : sum_over jobs (fun j => F j.1 j.2) = sum_over (seq 0 (length ls)) (fun r => match ls !! r with Some l => sum_over l (F r) | None => 0%R end).
  Proof.
    unfold DdPairProofs.jobs. rewrite sum_flat, (Forall2_length _ _ _ HLs). apply sum_ext. intros r _. destruct (ls !! r); [|by rewrite sum_nil]. by rewrite sum_map.
  Qed.
  Lemma zip_lookup r p q : zip lists sys2 !! r = Some (p, q) -> exists l, built p l /\ ls !! r = Some l /\ sys2 !! r = Some q /\ lists !! r = Some p.
  Proof.
    intros H. rewrite lookup_zip_with in H. destruct (lists !! r) as [p'|] eqn:Ep; [|done]. cbn in H. destruct (sys2 !! r) as [q'|] eqn:Eq; [|done]. cbn in H. injection H as -> ->. destruct (Forall2_lookup_l _ _ _ _ _ HB Ep) as (l & Hl & Hb). eauto.
  Qed.
  Lemma zip_length : length (zip lists sys2) = length ls.
  Proof. rewrite zip_with_length. pose proof (Forall2_length _ _ _ HB). pose proof (Forall2_length _ _ _ HLs). pose proof (Forall2_length _ _ _ (fl_lists _ _ _ _ HFo)). lia. Qed.
  Lemma reduce_gen {T} (I : T -> R) (f : dplist -> xproc -> outcome T) (F : nat -> nat * nat -> R) :
    (forall r p q l, built p l -> ls !! r = Some l -> sys2 !! r = Some q -> exists v, f p q = Ok v /\ I v = sum_over l (F r)) ->
    exists k, mapO (fun c => f c.1 c.2) (zip lists sys2) = Ok k /\ sum_over k I = sum_over jobs (fun j => F j.1 j.2).
  Proof.
    intros H. destruct (mapO_total (fun c => f c.1 c.2) (zip lists sys2)) as [k Hk].
    { intros r [p q] Hr. destruct (zip_lookup r p q Hr) as (l & H1 & H2 & H3 & _). destruct (H r p q l H1 H2 H3) as (v & E & _). by exists v. }
    exists k. split; [done|]. pose proof (proj1 (mapO_Ok _ _ _) Hk) as HK. rewrite jobs_sum, sum_at. rewrite <- (Forall2_length _ _ _ HK), zip_length. apply sum_ext. intros r Hr%elem_of_seq.
    destruct (lookup_lt_is_Some_2 (zip lists sys2) r) as [[p q] Hz]; [rewrite zip_length; lia|]. destruct (Forall2_lookup_l _ _ _ _ _ HK Hz) as (v & Hv & E). rewrite Hv. destruct (zip_lookup r p q Hz) as (l & H1 & H2 & H3 & _). rewrite H2. destruct (H r p q l H1 H2 H3) as (v' & E' & <-). cbn [fst snd] in E. congruence.
  Qed.
  Lemma reduce_R (f : dplist -> xproc -> outcome R) (F : nat -> nat * nat -> R) :
    (forall r p q l, built p l -> ls !! r = Some l -> sys2 !! r = Some q -> f p q = Ok (sum_over l (F r))) -> reduce Rplus 0%R f lists sys2 = Ok (sum_over jobs (fun j => F j.1 j.2)).
  Proof. intros H. destruct (reduce_gen (fun x => x) f F) as (k & E & Es); [intros r p q l H1 H2 H3; eexists; split; [by apply (H r)|done]|]. unfold reduce. rewrite E. cbn [obind]. by rewrite fold_right_sum, Es. Qed.
  (** Both orders. *)
  Lemma sum_seen (F : triple -> R) : sum_over seen F = sum_over jobs (fun j => F (trip j.1 j.2) + if both j then F (flip (trip j.1 j.2)) else 0)%R.
  Proof. unfold DdPairProofs.seen. rewrite sum_flat. apply sum_ext. intros j _. unfold DdPairProofs.contr. rewrite sum_cons. destruct (both j); [rewrite sum_cons|]; rewrite sum_nil; lra. Qed.
  Lemma sum_now (F : triple -> R) : sum_over now F = sum_over seen (fun t => if close t then F t else 0%R).
  Proof. unfold now. induction seen as [|t l IH]; [done|]. cbn [List.filter]. rewrite sum_cons, <- IH. destruct (close t); [by rewrite sum_cons|lra]. Qed.
  Lemma sum_even (F : triple -> R) : (forall t, F (flip t) = F t) -> sum_over seen F = sum_over jobs (fun j => (if both j then 2 else 1) * F (trip j.1 j.2))%R.
  Proof. intros H. rewrite sum_seen. apply sum_ext. intros j _. rewrite H. destruct (both j); lra. Qed.
  Lemma both_cond r p q x y : (r, (x, y)) ∈ jobs -> sys !! r = Some p -> sys2 !! r = Some q -> both (r, (x, y)) = rev || negb (bool_decide (y ∈ xpGhosts q)).
  Proof.
    intros HJ Hr Hq. destruct (job_sound _ _ _ _ _ _ _ _ HLs _ _ _ HJ) as (p' & l & Hr' & _ & _ & Hx & Hy & _). assert (p' = p) as -> by congruence. destruct (same_lookup _ _ _ _ (fl_lists _ _ _ _ HFo) Hr) as (q' & Hq' & _ & _ & E). assert (q' = q) as -> by congruence.
    unfold DdPairProofs.both. cbn [fst snd]. f_equal. rewrite E. apply elem_of_app in Hy as [Hy|Hy].
    - rewrite bool_decide_eq_true_2 by (by apply (local_elem sys r p)). rewrite bool_decide_eq_false_2; [done|]. intros Hg. by apply (disj dims s sys HP r p y).
    - rewrite (bool_decide_eq_true_2 (y ∈ _)) by done. rewrite bool_decide_eq_false_2; [done|]. intros Hg. apply (local_elem sys r p) in Hg; [|done]. by apply (disj dims s sys HP r p y).
  Qed.
  Lemma job_of r l xy : ls !! r = Some l -> xy ∈ l -> (r, xy) ∈ jobs /\ exists p, sys !! r = Some p.
  Proof. intros Hl Hxy. destruct (Forall2_lookup_r _ _ _ _ _ HLs Hl) as (p & Hp & HLp). split; [|by exists p]. apply (job_elem _ _ _ _ _ _ _ _ HLs). eauto 6. Qed.

  Definition uzero : Prop := forall r a b, ~ (r < cut2 a b)%R -> u r a b = 0%R.
  Theorem total_energy : uzero -> reduce Rplus 0%R (energyList u rev) lists sys2 = Ok (1/2 * sum_over now (pair_u u A sys2))%R.
  Proof.
    intros H0. rewrite sum_now. rewrite (sum_ext (fun t => if close t then pair_u u A sys2 t else 0%R) (pair_u u A sys2)).
    2:{ intros t _. unfold close. destruct (Rlt_dec _ _); [done|]. unfold pair_u. by rewrite H0. }
    rewrite (sum_even _ u_flip), <- sum_scale. rewrite (reduce_R _ (fun r xy => 1/2 * ((if both (r, xy) then 2 else 1) * pair_u u A sys2 (trip r xy)))%R).
    - reflexivity.
    - intros r p q l HBl Hl Hq. rewrite (energy_list _ _ _ l) by done. f_equal. apply sum_ext. intros [x y] Hxy. destruct (job_of r l _ Hl Hxy) as (HJ & p0 & Hp0). rewrite (both_cond r p0 q x y HJ Hp0 Hq).
      destruct (job_dr r q x y HJ Hq) as (E1 & E2 & E3). unfold weight, p_energy, p_rsq, pair_u. cbn [fst snd]. rewrite E1, E2, E3. destruct (_ || _); lra.
  Qed.
  Theorem total_stress i j : reduce Rplus 0%R (stressList cut2 fo i j rev) lists sys2 = Ok (1/2 * sum_over now (pair_w fo A sys2 i j))%R.
  Proof.
    rewrite sum_now, (sum_even (fun t => if close t then pair_w fo A sys2 i j t else 0%R)) by (intros t; by rewrite close_flip, w_flip). rewrite <- sum_scale.
    rewrite (reduce_R _ (fun r xy => 1/2 * ((if both (r, xy) then 2 else 1) * (if close (trip r xy) then pair_w fo A sys2 i j (trip r xy) else 0)))%R).
    - reflexivity.
    - intros r p q l HBl Hl Hq. rewrite (stress_list _ _ _ _ _ _ l) by done. f_equal. apply sum_ext. intros [x y] Hxy. destruct (job_of r l _ Hl Hxy) as (HJ & p0 & Hp0). rewrite (both_cond r p0 q x y HJ Hp0 Hq).
      destruct (job_dr r q x y HJ Hq) as (E1 & E2 & E3). unfold weight, p_in, p_force, p_rsq, close, pair_w, pair_f. cbn [fst snd]. rewrite E1, E2, E3. destruct (Rlt_dec _ _); destruct (_ || _); lra.
  Qed.
  (** Pairs closer than any distance within the reach of the list. *)
  Theorem total_npair : (forall a b, cut2 a b = c * c)%R -> exists N, reduce Z.add 0%Z (nPairList (c * c) rev) lists sys2 = Ok N /\ N = Z.of_nat (length now).
  Proof.
    intros HE. destruct (reduce_gen IZR (nPairList (c * c) rev) (fun r xy => (if both (r, xy) then 2 else 1) * (if close (trip r xy) then 1 else 0))%R) as (k & E & Es).
    - intros r p q l HBl Hl Hq. destruct (npair_list (c * c)%R rev p l q HBl) as (N & EN & EZ). exists N. split; [done|]. rewrite EZ. apply sum_ext. intros [x y] Hxy. destruct (job_of r l _ Hl Hxy) as (HJ & p0 & Hp0). rewrite (both_cond r p0 q x y HJ Hp0 Hq).
      destruct (job_dr r q x y HJ Hq) as (E1 & E2 & E3). unfold p_rsq, close. cbn [fst snd]. rewrite E1, HE. destruct (Rlt_dec _ _); destruct (_ || _); lra.
    - exists (fold_right Z.add 0%Z k). unfold reduce. rewrite E. cbn [obind]. split; [done|]. apply eq_IZR. rewrite fold_right_IZR, Es. rewrite <- INR_IZR_INZ.
      assert (EL : INR (length now) = sum_over now (fun _ => 1%R)). { induction now as [|t l IH]; [done|]. cbn [length]. rewrite S_INR, sum_cons, IH. lra. }
      rewrite EL, sum_now, (sum_even (fun t => if close t then 1%R else 0%R)) by (intros t; by rewrite close_flip). apply sum_ext. intros [r xy] _. done.
  Qed.

  (** *** Forces *)
  Definition zeroed (q : xproc) : xproc := zero_forces rev q.
  Definition fin (r : nat) (l : list (nat * nat)) (q : xproc) : nat -> xatom := fold_left (fstep cut2 fo (fun y => rev || negb (bool_decide (y ∈ xpGhosts q)))) l (xpMem (zeroed q)).
  Lemma zero_alike q : alike (xpMem q) (xpMem (zeroed q)).
  Proof. intros h. unfold zeroed, zero_forces. cbn [xpMem with_mem]. destruct (decide _); [by eexists|]. exists (xForce (xpMem q h)). by destruct (xpMem q h). Qed.
  Lemma zero_lists q : xpLocals (zeroed q) = xpLocals q /\ xpGhosts (zeroed q) = xpGhosts q.
  Proof. done. Qed.
  (** Force at an address after the loops of all processors. *)
  Definition F (cc : nat) (t : triple) : R := if close t then vget (pair_f fo A sys2 t) cc else 0%R.
  Lemma F_flip cc t : cc < 3 -> F cc (flip t) = (- F cc t)%R.
  Proof. intros Hcc. unfold F. rewrite close_flip, f_flip. destruct (close t); [by apply neg3_comp|lra]. Qed.
  Lemma job_comp r q x y cc : (r, (x, y)) ∈ jobs -> sys2 !! r = Some q -> fcomp cut2 fo (xpMem (zeroed q)) (x, y) cc = F cc (trip r (x, y)).
  Proof.
    intros HJ Hq. unfold fcomp. pose proof (zero_alike q) as HZ. rewrite (alike_in cut2 _ _ _ HZ), (alike_force fo _ _ _ HZ). destruct (job_dr r q x y HJ Hq) as (E1 & E2 & E3). unfold p_in, p_force, p_rsq, F, close, pair_f. cbn [fst snd]. rewrite E1, E2, E3. by destruct (Rlt_dec _ _).
  Qed.
  Lemma loops_run : exists s4, mapO (fun c => computeForcesList cut2 fo rev c.1 (zero_forces rev c.2)) (zip lists sys2) = Ok s4 /\ same_lists sys2 s4 /\
    (forall a, exists f, mem_at s4 a = put_force (mem_at sys2 a) f) /\
    forall r q l h cc, sys2 !! r = Some q -> ls !! r = Some l -> cc < 3 -> (h ∈ xpLocals q \/ rev = true /\ h ∈ xpGhosts q) ->
      vget (xForce (mem_at s4 (r, h))) cc = sum_over l (fun xy => (if decide (xy.1 = h) then F cc (trip r xy) else 0) - (if both (r, xy) then if decide (xy.2 = h) then F cc (trip r xy) else 0 else 0))%R.
  Proof.
    destruct (mapO_total (fun c => computeForcesList cut2 fo rev c.1 (zero_forces rev c.2)) (zip lists sys2)) as [s4 H4].
    { intros r [p q] Hr. destruct (zip_lookup r p q Hr) as (l & H1 & _). cbn [fst snd]. rewrite (forces_list cut2 fo rev p l _ H1). by eexists. }
    pose proof (proj1 (mapO_Ok _ _ _) H4) as HK. exists s4. split; [done|].
    assert (EL : length (zip lists sys2) = length sys2). { rewrite zip_length, <- (Forall2_length _ _ _ HLs). exact (Forall2_length _ _ _ (fl_lists _ _ _ _ HFo)). }
    assert (HR : forall r q, sys2 !! r = Some q -> exists l, ls !! r = Some l /\ s4 !! r = Some (with_mem (zeroed q) (fin r l q))).
    { intros r q Hq. destruct (lookup_lt_is_Some_2 (zip lists sys2) r) as [[p q'] Hz]; [rewrite EL; by eapply lookup_lt_Some|]. destruct (zip_lookup r p q' Hz) as (l & H1 & H2 & H3 & _). assert (q' = q) as -> by congruence. exists l. split; [done|].
      destruct (Forall2_lookup_l _ _ _ _ _ HK Hz) as (v & Hv & E). cbn [fst snd] in E. rewrite (forces_list cut2 fo rev p l _ H1) in E. injection E as <-. done. }
    split; [|split].
    - apply Forall2_same_length_lookup_2; [rewrite <- EL; exact (Forall2_length _ _ _ HK)|]. intros r q q4 Hq H4'. destruct (HR r q Hq) as (l & _ & E). rewrite E in H4'. injection H4' as <-. done.
    - intros [r h]. destruct (sys2 !! r) as [q|] eqn:Hq.
      + destruct (HR r q Hq) as (l & Hl & E). rewrite (mem_at_some _ _ _ _ E), (mem_at_some _ _ _ _ Hq). cbn [xpMem with_mem]. apply (alike_trans _ _ _ (zero_alike q)). apply fold_fstep.
      + assert (s4 !! r = None) as E. { apply lookup_ge_None. rewrite <- (Forall2_length _ _ _ HK), EL. by apply lookup_ge_None. } unfold mem_at. cbn [fst snd]. rewrite E, Hq. by eexists.
    - intros r q l h cc Hq Hl Hcc Hh. destruct (HR r q Hq) as (l' & Hl' & E). assert (l' = l) as -> by congruence. rewrite (mem_at_some _ _ _ _ E). cbn [xpMem with_mem]. unfold fin. rewrite (proj2 (fold_fstep _ _ _ _ _)) by done.
      assert (Z0 : vget (xForce (xpMem (zeroed q) h)) cc = 0%R). { unfold zeroed, zero_forces. cbn [xpMem with_mem]. rewrite decide_True by done. cbn [xForce]. destruct cc as [|[|]]; done. }
      rewrite Z0, Rplus_0_l. apply sum_ext. intros [x y] Hxy. destruct (job_of r l _ Hl Hxy) as (HJ & p0 & Hp0). rewrite (job_comp r q x y cc HJ Hq), (both_cond r p0 q x y HJ Hp0 Hq). done.
  Qed.
  Lemma addr_sum r q l (g : nat * nat -> R) (G : nat * (nat * nat) -> R) : sys2 !! r = Some q -> ls !! r = Some l ->
    (forall xy, xy ∈ l -> g xy = G (r, xy)) -> (forall j, j ∈ jobs -> j.1 <> r -> G j = 0%R) -> sum_over l g = sum_over jobs G.
  Proof.
    intros Hq Hl Hg H0. rewrite (sum_ext G (fun j => (fun r xy => G (r, xy)) j.1 j.2)) by (intros [? ?] _; done). rewrite (jobs_sum (fun r xy => G (r, xy))).
    rewrite (sum_one _ _ r); [|apply NoDup_seq|apply elem_of_seq; apply lookup_lt_Some in Hl; lia|].
    - rewrite Hl. by apply sum_ext.
    - intros r' _ Hne. destruct (ls !! r') as [l'|] eqn:El; [|done]. apply sum_0. intros xy Hxy. destruct (job_of r' l' xy El Hxy) as [HJ _]. exact (H0 (r', xy) HJ Hne).
  Qed.
  (** What address [a] gets from job [j]. *)
  Definition get (cc : nat) (a : nat * nat) (j : nat * (nat * nat)) : R :=
    ((if decide ((j.1, j.2.1) = a) then F cc (trip j.1 j.2) else 0) - (if both j then if decide ((j.1, j.2.2) = a) then F cc (trip j.1 j.2) else 0 else 0))%R.
  Lemma get_sum s4 r q l h cc : sys2 !! r = Some q -> ls !! r = Some l ->
    vget (xForce (mem_at s4 (r, h))) cc = sum_over l (fun xy => (if decide (xy.1 = h) then F cc (trip r xy) else 0) - (if both (r, xy) then if decide (xy.2 = h) then F cc (trip r xy) else 0 else 0))%R ->
    vget (xForce (mem_at s4 (r, h))) cc = sum_over jobs (get cc (r, h)).
  Proof.
    intros Hq Hl ->. apply (addr_sum r q); [done..| |].
    - intros [x y] _. unfold get. cbn [fst snd]. assert (HE : forall (z : nat) (v : R), (if decide (z = h) then v else 0%R) = (if decide ((r, z) = (r, h)) then v else 0%R)) by (intros z v; destruct (decide (z = h)) as [->|Hne]; [by rewrite decide_True|rewrite decide_False; [done|congruence]]).
      rewrite (HE x). destruct (both (r, (x, y))); [|done]. by rewrite (HE y).
    - intros [r' [x y]] _ Hne. unfold get. cbn [fst snd] in *. rewrite !decide_False by congruence. destruct (both _); lra.
  Qed.
  Lemma nodup_ghost : NoDup (ghost_addrs sys).
  Proof.
    unfold ghost_addrs. apply NoDup_flat_map; [apply NoDup_seq| |].
    - intros r _. destruct (sys !! r) as [p|] eqn:E; [|apply NoDup_nil_2]. apply (NoDup_fmap_2 (pair r)). pose proof (proj1 (Forall_forall _ _) (se_nodup _ _ _ HP) p (elem_of_list_lookup_2 _ _ _ E)) as N. by apply NoDup_app in N as (_ & _ & N).
    - intros r r' z _ _ H1 H2. destruct (sys !! r) as [p|]; [|by apply elem_of_nil in H1]. destruct (sys !! r') as [p'|]; [|by apply elem_of_nil in H2]. apply elem_of_map in H1 as (? & -> & _). apply elem_of_map in H2 as (? & E & _). congruence.
  Qed.
  Lemma local_not_ghost a : a ∈ local_addrs sys -> a ∈ ghost_addrs sys -> False.
  Proof. intros (p & Hp & H1)%elem_local (p' & Hp' & H2)%elem_ghost. rewrite Hp in Hp'. injection Hp' as <-. by apply (disj dims s sys HP a.1 p a.2). Qed.
  Theorem total_forces : exists s5, computePairForces cut2 fo rev lists sys2 = Ok s5 /\ same_lists sys2 s5 /\
    (forall a, a ∈ local_addrs sys2 -> exists f, mem_at s5 a = put_force (mem_at sys2 a) f) /\
    forall a cc, a ∈ local_addrs sys2 -> cc < 3 -> vget (xForce (mem_at s5 a)) cc = sum_over now (fun t : triple => if decide (t.1.1 = a) then vget (pair_f fo A sys2 t) cc else 0)%R.
  Proof.
    destruct loops_run as (s4 & E4 & HS4 & HF4 & HV). unfold computePairForces. rewrite E4. cbn [obind]. pose proof (fl_lists _ _ _ _ HFo) as HS2. rewrite (same_local _ _ HS2).
    assert (HG : forall a cc, cc < 3 -> a ∈ local_addrs sys \/ rev = true /\ a ∈ ghost_addrs sys -> vget (xForce (mem_at s4 a)) cc = sum_over jobs (get cc a)).
    { intros [r h] cc Hcc Ha. assert (HH : exists p, sys !! r = Some p /\ (h ∈ xpLocals p \/ rev = true /\ h ∈ xpGhosts p)).
      { destruct Ha as [(p & Hp & H)%elem_local|[Hr (p & Hp & H)%elem_ghost]]; exists p; (split; [done|]); [by left|by right]. }
      destruct HH as (p & Hp & Hh). destruct (same_lookup _ _ _ _ HS2 Hp) as (q & Hq & _ & E1 & E2). destruct (Forall2_lookup_l _ _ _ _ _ HLs Hp) as (l & Hl & _).
      apply (get_sum s4 r q l h cc Hq Hl). apply (HV r q l h cc Hq Hl Hcc). by rewrite E1, E2. }
    assert (HN : forall a cc, cc < 3 -> sum_over now (fun t : triple => if decide (t.1.1 = a) then vget (pair_f fo A sys2 t) cc else 0)%R =
      sum_over jobs (fun j => (if decide ((j.1, j.2.1) = a) then F cc (trip j.1 j.2) else 0) - (if both j then if decide ((ow (j.1, j.2.2)).1 = a) then F cc (trip j.1 j.2) else 0 else 0))%R).
    { intros a cc Hcc. rewrite sum_now. rewrite (sum_ext _ (fun t : triple => if decide (t.1.1 = a) then F cc t else 0%R)) by (intros t _; unfold F; destruct (close t), (decide (t.1.1 = a)); done).
      rewrite sum_seen. apply sum_ext. intros [r [x y]] _. rewrite (F_flip cc _ Hcc). unfold flip, DdPairProofs.trip. cbn [fst snd]. destruct (both (r, (x, y))); repeat match goal with |- context [decide ?P] => destruct (decide P) end; lra. }
    destruct (decide (rev = true)) as [Hrev|Hrev].
    - rewrite Hrev. assert (HS : same_lists sys s4).
      { apply Forall2_same_length_lookup_2; [by rewrite (Forall2_length _ _ _ HS2), (Forall2_length _ _ _ HS4)|]. intros r p p4 Hp Hp4. destruct (Forall2_lookup_l _ _ _ _ _ HS2 Hp) as (q & Hq & A1 & A2 & A3 & A4 & A5). destruct (Forall2_lookup_l _ _ _ _ _ HS4 Hq) as (q4 & Hq4 & B1 & B2 & B3 & B4 & B5).
        assert (q4 = p4) as -> by congruence. split; [congruence|]. split; [congruence|]. split; [congruence|]. split; intros i j; [by rewrite B4|by rewrite B5]. }
      destruct (li_reverse _ _ HL s4 HS) as (s5 & E5 & HS5 & HF5 & HV5). exists s5. split; [done|]. split; [|split].
      { apply Forall2_same_length_lookup_2; [by rewrite <- (Forall2_length _ _ _ HS2), (Forall2_length _ _ _ HS5)|]. intros r q p5 Hq Hp5. destruct (Forall2_lookup_r _ _ _ _ _ HS5 Hp5) as (p & Hp & B1 & B2 & B3 & B4 & B5). destruct (Forall2_lookup_l _ _ _ _ _ HS2 Hp) as (q' & Hq' & A1 & A2 & A3 & A4 & A5).
        assert (q' = q) as -> by congruence. split; [congruence|]. split; [congruence|]. split; [congruence|]. split; intros i j; [by rewrite B4, A4|by rewrite B5, A5]. }
      { intros a Ha. destruct (HF5 a) as [f Ef]; [by left|]. destruct (HF4 a) as [f4 Ef4]. exists f. by rewrite Ef, Ef4. }
      intros a cc Ha Hcc. rewrite (HV5 a cc Ha Hcc), HN, HG by (done || by left).
      rewrite (sum_ext (fun b => if decide ((own b).1 = a) then vget (xForce (mem_at s4 b)) cc else 0)%R (fun b => sum_over jobs (fun j => if decide ((own b).1 = a) then get cc b j else 0%R))).
      2:{ intros b Hb. destruct (decide _); [apply HG; [done|by right]|]. symmetry. by apply sum_0. }
      rewrite sum_swap, <- EnergyProofs.sum_plus. apply sum_ext. intros [r [x y]] HJ. destruct (job_sound _ _ _ _ _ _ _ _ HLs _ _ _ HJ) as (p & l & Hp & _ & _ & Hx & Hy & _). pose proof (in_local sys r p x Hp Hx) as HLx.
      assert (EB : both (r, (x, y)) = true) by (unfold DdPairProofs.both; by rewrite Hrev). unfold get at 1. rewrite EB. cbn [fst snd]. apply elem_of_app in Hy as [Hy|Hy].
      + rewrite (ow_local dims s sys own HP r p y Hp Hy). cbn [fst snd]. rewrite sum_0; [lra|]. intros b Hb. destruct (decide _); [|done]. unfold get. rewrite EB. cbn [fst snd].
        rewrite !decide_False; [lra| |]; intros <-; [by apply (local_not_ghost (r, y)); [by eapply in_local|]|by apply (local_not_ghost (r, x))].
      + rewrite (ow_ghost sys own r p y Hp Hy). rewrite (decide_False (P := (r, y) = a)); [|intros <-; apply (local_not_ghost (r, y)); [done|by eapply in_ghost]].
        rewrite (sum_one _ _ (r, y)); [|exact nodup_ghost|by eapply in_ghost|].
        * unfold get. rewrite EB. cbn [fst snd]. rewrite (decide_False (P := (r, x) = (r, y))); [|intros E; apply (local_not_ghost (r, x)); [done|rewrite E; by eapply in_ghost]]. rewrite (decide_True (P := (r, y) = (r, y))) by done. repeat match goal with |- context [decide ?P] => destruct (decide P) end; lra.
        * intros b Hb Hne. destruct (decide _); [|done]. unfold get. rewrite EB. cbn [fst snd]. rewrite (decide_False (P := (r, x) = b)); [|intros <-; by apply (local_not_ghost (r, x))]. rewrite decide_False by congruence. lra.
    - apply not_true_is_false in Hrev. rewrite Hrev. exists s4. split; [done|]. split; [done|]. split; [intros a _; apply HF4|]. intros a cc Ha Hcc. rewrite HN, HG by (done || by left). apply sum_ext. intros [r [x y]] HJ. unfold get. cbn [fst snd].
      destruct (job_sound _ _ _ _ _ _ _ _ HLs _ _ _ HJ) as (p & l & Hp & _ & _ & Hx & Hy & _). destruct (both (r, (x, y))) eqn:EB; [|done]. unfold DdPairProofs.both in EB. rewrite Hrev in EB. cbn [orb fst snd] in EB. apply bool_decide_eq_true in EB. apply (local_elem sys r p y Hp) in EB. by rewrite (ow_local dims s sys own HP r p y Hp EB).
  Qed.
End total.
