(** Theorems about Exchanger::update and reverseUpdate (C27). *)
From stdpp Require Import gmap.
From Verif Require Import Base Containers Vec3 PlanModel OrthoModel BoxSpec OrthoSpec OrthoProofs MonoModel MonoSpec MonoProofs DomainModel DomainSpec DomainProofs DomainProps SpeciesModel SpeciesProofs SimProofs DistSpec DistExamples EnergySpec EnergyProofs ExchModel ExchSpec ExchUpdSpec ExchProofs ExchAtoms ExchElem ExchStart ExchGhost ExchCopies ExchFinal ExchProps ExchExamples ExchLinks ExchUpdate.
From Coq Require Import Reals Lra.
Local Open Scope nat_scope.

Lemma links_follow dims sys' : grid_ok dims -> links dims dirs [] sys' -> exists own : owners,
  (forall a, a ∈ ghost_addrs sys' -> (own a).1 ∈ local_addrs sys' /\ is_image (mem_at sys' (own a).1) (own a).2 (mem_at sys' a)) /\
  (forall A sh s2, lattice_shift A sh -> same_lists sys' s2 -> exists s3, update sh s2 = Ok s3 /\ same_lists sys' s3 /\
     (forall a, a ∈ ghost_addrs sys' -> mem_at s3 a = put_pos (mem_at s2 a) (lattice_move A (xPos (mem_at s2 (own a).1)) (own a).2)) /\
     (forall a, a ∈ local_addrs sys' -> mem_at s3 a = mem_at s2 a)) /\
  (forall s2, same_lists sys' s2 -> exists s3, reverseUpdate s2 = Ok s3 /\ same_lists sys' s3 /\
     (forall a, a ∈ local_addrs sys' \/ a ∈ ghost_addrs sys' -> exists f, mem_at s3 a = put_force (mem_at s2 a) f) /\
     (forall a c, a ∈ local_addrs sys' -> c < 3 ->
        vget (xForce (mem_at s3 a)) c = (vget (xForce (mem_at s2 a)) c + sum_over (ghost_addrs sys') (fun b => if decide ((own b).1 = a) then vget (xForce (mem_at s2 b)) c else 0))%R) /\
     (forall c, c < 3 -> total_force s3 (local_addrs sys') c = (total_force s2 (local_addrs sys') c + total_force s2 (ghost_addrs sys') c)%R)).
Proof.
  intros Hd HL. exists (own dims sys').
  assert (HLn : forall a, a ∈ local_addrs sys' -> a.1 < n_proc dims). { intros a Ha. apply (elem_local sys') in Ha as (p & Hp & _). rewrite <- (S_len dims sys' HL). by eapply lookup_lt_Some. }
  assert (HGn : forall a, a ∈ ghost_addrs sys' -> a.1 < n_proc dims). { intros a Ha. apply (ghost_known dims sys' HL) in Ha. apply Ha. }
  assert (HE : dirs = dirs ++ []) by (by rewrite app_nil_r).
  assert (HOL : forall a, a ∈ local_addrs sys' -> own dims sys' a = (a, (V3 0 0 0)%Z)).
  { intros a Ha. apply (ownr_self dims sys' HL a) with (rem := []); [by apply elem_local|done]. }
  split; [|split].
  - intros a Ha. split.
    + apply elem_local. apply (ownr_local dims Hd sys' HL dirs [] a HE). by apply ghost_known.
    + apply (ownr_image dims Hd sys' HL dirs [] a HE). by apply HGn.
  - intros A sh s2 HA HS. destruct (updates dims Hd sys' HL A sh s2 HA HS dirs [] HE) as (s3 & F & HS3 & HU). exists s3. split; [exact F|]. split; [done|]. split.
    + intros a Ha. apply HU. by apply HGn.
    + intros a Ha. rewrite (HU a) by (by apply HLn). fold (own dims sys'). cbv zeta. rewrite (HOL a Ha). cbn [fst snd]. unfold put_pos, lattice_move. cbn [vx vy vz]. rewrite !Rmult_0_l, !Rplus_0_r.
      destruct (mem_at s2 a) as [? ? [? ? ?] ? ? ?]. done.
  - intros s2 HS. destruct (reverses dims Hd sys' HL dirs [] HE s2 HS) as (s3 & F & HS3 & HM & HF). exists s3. split; [exact F|]. split; [done|]. split; [|split].
    + intros a Ha. apply HM. destruct Ha as [Ha|Ha]; [by apply HLn|by apply HGn].
    + intros a c Ha Hc. specialize (HF c (fun b => if decide (b = a) then 1 else 0)%R Hc). fold (own dims sys') in HF. rewrite (sum_LA dims sys' HL) in HF. unfold fo in HF.
      pose proof (local_nodup dims sys' HL) as HN.
      rewrite (sum_one _ (local_addrs sys') a HN Ha) in HF by (intros x _ Hx; rewrite decide_False by done; lra). rewrite decide_True in HF by done.
      rewrite (sum_one _ (local_addrs sys') a HN Ha) in HF by (intros x Hx Hne; rewrite (HOL x Hx); cbn [fst]; rewrite decide_False by done; lra). rewrite (HOL a Ha) in HF. cbn [fst] in HF. rewrite decide_True in HF by done.
      rewrite !Rmult_1_r in HF. rewrite HF. f_equal. apply sum_ext. intros b _. destruct (decide ((own dims sys' b).1 = a)); lra.
    + intros c Hc. specialize (HF c (fun _ => 1)%R Hc). rewrite (sum_LA dims sys' HL) in HF. unfold total_force. unfold fo in HF.
      assert (E1 : forall t l, sum_over l (fun a => (vget (xForce (mem_at t a)) c * 1)%R) = sum_over l (fun a => vget (xForce (mem_at t a)) c)) by (intros t l; apply sum_ext; intros; lra).
      rewrite !E1 in HF. exact HF.
Qed.

(** The exchange fixes an owner for every ghost.  However atoms move and whatever forces are computed afterwards, update and reverseUpdate succeed; every ghost gets the position
    of its owner displaced by the same vector of the lattice; every owner gets the forces of all its ghosts, and the sum of all forces is kept.  Nothing else changes. *)
Theorem ghosts_follow dims s sys sys' : grid_system dims sys -> exchange_all s sys = Ok sys' -> exists own : owners,
  (forall a, a ∈ ghost_addrs sys' -> (own a).1 ∈ local_addrs sys' /\ is_image (mem_at sys' (own a).1) (own a).2 (mem_at sys' a)) /\
  (forall A sh s2, lattice_shift A sh -> same_lists sys' s2 -> exists s3, update sh s2 = Ok s3 /\ same_lists sys' s3 /\
     (forall a, a ∈ ghost_addrs sys' -> mem_at s3 a = put_pos (mem_at s2 a) (lattice_move A (xPos (mem_at s2 (own a).1)) (own a).2)) /\
     (forall a, a ∈ local_addrs sys' -> mem_at s3 a = mem_at s2 a)) /\
  (forall s2, same_lists sys' s2 -> exists s3, reverseUpdate s2 = Ok s3 /\ same_lists sys' s3 /\
     (forall a, a ∈ local_addrs sys' \/ a ∈ ghost_addrs sys' -> exists f, mem_at s3 a = put_force (mem_at s2 a) f) /\
     (forall a c, a ∈ local_addrs sys' -> c < 3 ->
        vget (xForce (mem_at s3 a)) c = (vget (xForce (mem_at s2 a)) c + sum_over (ghost_addrs sys') (fun b => if decide ((own b).1 = a) then vget (xForce (mem_at s2 b)) c else 0))%R) /\
     (forall c, c < 3 -> total_force s3 (local_addrs sys') c = (total_force s2 (local_addrs sys') c + total_force s2 (ghost_addrs sys') c)%R)).
Proof.
  intros HG H. pose proof (gs_grid _ _ HG) as Hd. destruct (all_split dims s sys sys' HG H) as (s1 & H1 & H2 & HI & G & _).
  apply links_follow with (dims := dims); [done|]. apply (links_ready dims Hd s1 sys'); [by apply inv_ready|done].
Qed.

(** The shifts of both kinds of boxes. *)
Definition ortho_vectors (b : ortho) (i : nat) : vec3 R := vset (V3 0 0 0)%R i (vget (oLen b) i).
Definition mono_vectors (b : mono) (i : nat) : vec3 R := match i with 0 => V3 (vx (mL b)) 0 0 | 1 => V3 0 (vy (mL b)) (mD b) | _ => V3 0 0 (vz (mL b)) end%R.
Theorem ortho_lattice b : lattice_shift (ortho_vectors b) (applyShift b) /\ forall g k, genToCart b (translate g k) = lattice_move (ortho_vectors b) (genToCart b g) k.
Proof.
  split.
  - intros r i t Hi. unfold applyShift, ortho_vectors, vplus. destruct i as [|[|[|]]]; [| | |lia]; cbn [vget vset vx vy vz]; f_equal; lra.
  - intros g k. unfold genToCart, translate, lattice_move, ortho_vectors. cbn [vget vset vx vy vz]. f_equal; lra.
Qed.
Theorem mono_lattice b : lattice_shift (mono_vectors b) (mono_applyShift b) /\ forall g k, mono_genToCart b (translate g k) = lattice_move (mono_vectors b) (mono_genToCart b g) k.
Proof.
  split.
  - intros r i t Hi. unfold mono_applyShift, mono_vectors, vplus. destruct i as [|[|[|]]]; [| | |lia]; cbn [vget vset vx vy vz]; f_equal; lra.
  - intros g k. unfold mono_genToCart, translate, lattice_move, mono_vectors. cbn [vget vset vx vy vz]. f_equal; lra.
Qed.

(** In the example with two atoms there are ghosts; after the exchange their positions are right already, so that an update in generalized coordinates changes nothing. *)
Lemma same_lists_refl sys : same_lists sys sys.
Proof. apply Forall2_same_length_lookup. split; [done|]. intros i x y Hx Hy. assert (y = x) by congruence. by subst. Qed.
Definition unit_vectors (i : nat) : vec3 R := vset (V3 0 0 0)%R i 1%R.
Example ex_update sys' : exchange_all ex_s (two [ex_a] [ex_b]) = Ok sys' ->
  (exists g, (0, g) ∈ ghost_addrs sys') /\
  exists s3, update shift_pos sys' = Ok s3 /\ forall a, a ∈ ghost_addrs sys' -> mem_at s3 a = mem_at sys' a.
Proof.
  intros H. destruct ex_ready as (HG & HD & HS & HN & _). destruct (all_split _ _ _ _ HG H) as (s1 & H1 & H2 & HI & G & HT & EH & ED). split.
  - pose proof (ginv_len _ _ G) as HLn. destruct (lookup_lt_is_Some_2 sys' 0) as [p Hp]; [rewrite HLn; vm_compute; lia|].
    assert (Hdom : xpDom p = dom2 0).
    { assert (HDo : domain_of dims2 (Z.of_nat 0) (xpDom p)). { destruct (gi_dom _ _ G) as [_ HDo]. apply HDo. by rewrite list_lookup_fmap, Hp. }
      assert (D0 : domain_of dims2 (Z.of_nat 0) (dom2 0)) by (apply (proj2 dims2_ok); done). unfold domain_of in *. congruence. }
    destruct (ex_images sys' p H Hp Hdom) as ((b & Hb & _ & _ & Eb) & _). apply elem_of_app in Hb as [Hb|Hb].
    + exfalso. assert (Hh : (0, b) ∈ held sys'). { unfold held. apply elem_of_flat_map. exists 0. split; [apply elem_of_seq; apply lookup_lt_Some in Hp; lia|]. rewrite Hp. apply elem_of_map. eauto. }
      rewrite EH in Hh. destruct (settled_atom dims2 (gs_grid _ _ HG) ex_m ex_s _ s1 HG HD H1 _ Hh) as (_ & _ & _ & _ & HC & _). specialize (HC 0 ltac:(lia)). cbn [fst snd] in HC.
      rewrite (proj1 (yy2 _)), Eb in HC. cbn [vx] in HC. lra.
    + unfold ghosts in Hb. apply elem_of_map in Hb as (g & _ & Hg). exists g. apply elem_ghost. exists p. done.
  - destruct (ghosts_follow dims2 ex_s _ sys' HG H) as (own & HO & HU & _). destruct (HU unit_vectors shift_pos sys') as (s3 & F & _ & HP & _).
    + intros r i t Hi. unfold shift_pos, unit_vectors, vplus. destruct i as [|[|[|]]]; [| | |lia]; cbn [vget vset vx vy vz]; f_equal; lra.
    + apply same_lists_refl.
    + exists s3. split; [done|]. intros a Ha. rewrite HP by done. destruct (HO a Ha) as (_ & _ & _ & E). unfold put_pos. replace (lattice_move _ _ _) with (xPos (mem_at sys' a)); [by destruct (mem_at sys' a)|].
      rewrite E. unfold translate, lattice_move, unit_vectors. cbn [vget vset vx vy vz]. f_equal; lra.
Qed.

Print Assumptions ghosts_follow.
Print Assumptions ortho_lattice.
Print Assumptions mono_lattice.
