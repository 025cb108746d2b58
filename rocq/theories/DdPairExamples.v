(** Examples for the nonbonded forces of the parallel program. *)
From Verif Require Import Base Containers Vec3 PlanModel OrthoModel BoxSpec OrthoSpec OrthoProofs MonoModel MonoSpec MonoProofs DomainModel DomainSpec DomainProofs DomainProps SpeciesModel SpeciesProofs SimProofs DistSpec DistExamples EnergySpec EnergyProofs NbrModel NbrSpec NbrProofs NbrProps NbrExamples ExchModel ExchSpec ExchUpdSpec ExchProofs ExchAtoms ExchElem ExchStart ExchGhost ExchCopies ExchFinal ExchProps ExchLinks ExchUpdate ExchUpdProps ExchExamples DdPairModel DdPairSpec DdPairExch DdPairProofs DdPairRuns DdPairTotal DdPairProps.
From Coq Require Import Reals Lra.
Local Open Scope nat_scope.

(** Two atoms on two processors, near to each other across the boundary. *)
Definition pe_a : xatom := at_ 5 (V3 (1/16) (1/2) (1/2))%R.
Definition pe_b : xatom := at_ 7 (V3 (15/16) (1/2) (1/2))%R.
Definition pe_sys : list xproc := two [pe_a] [pe_b].
Definition pe_cut (a b : Z) : R := (9/16)%R.
Definition pe_u (r : R) (a b : Z) : R := if Rlt_dec r (9/16) then (9/16 - r)%R else 0%R.
Definition pe_f (r : R) (a b : Z) : R := 2%R.
Lemma pe_interaction : interaction pe_cut pe_f pe_u (3/4)%R.
Proof.
  split; [done|]. split; [done|]. split; [done|]. split; [|split; [lra|intros a b; unfold pe_cut; lra]]. intros r a b H. unfold pe_cut, pe_u in *. by destruct (Rlt_dec _ _).
Qed.
Definition pe_vec (i : nat) : vec3 R := vset (V3 0 0 0)%R i (vget (oLen cube4) i).
Lemma pe_box n : a_dd_box (genToCart cube4) (oLen cube4) pe_vec (applyShift cube4) n.
Proof. exact (ddb_ortho cube4 n cube4_ok). Qed.
Lemma pe_slab i : i < 3 -> vget ex_s i = (1 / vget (oLen cube4) i)%R.
Proof. intros Hi. rewrite cube4_len. destruct i as [|[|[|]]]; [| | |lia]; cbn [vget ex_s vx vy vz]; lra. Qed.
Lemma pe_ready : grid_system dims2 pe_sys /\ displaced dims2 ex_m pe_sys /\ slabs dims2 ex_m ex_s /\ NoDup (map (fun u => xId u.2) (held pe_sys)) /\ exists sys', exchange_all ex_s pe_sys = Ok sys'.
Proof.
  assert (HN : NoDup (map (fun u => xId u.2) (held pe_sys))).
  { unfold pe_sys. rewrite held_two. cbn. repeat (apply NoDup_cons; split; [rewrite ?elem_of_cons, elem_of_nil; lia|]). constructor. }
  split; [apply two_grid|]. split.
  { apply two_displaced; [intros [|[|[|]]] Hi; try lia; unfold width; cbn; lra|apply Forall_singleton; unfold ex_m, pe_a; bnd 0|apply Forall_singleton; unfold ex_m, pe_b; bnd 1]. }
  split; [intros [|[|[|]]] Hi; try lia; unfold width; cbn; lra|]. split; [done|].
  apply (exchange_completes dims2); [apply two_grid|done|]. unfold pe_sys. rewrite held_two. unfold two. repeat (constructor; [cbn; lia|]). constructor.
Qed.
(** Everything the theorems ask for holds, for both kinds of communication, and the two atoms interact. *)
Example pe_all sys rev : exchange_all ex_s pe_sys = Ok sys ->
  off_faces sys /\ not_thin rev 1 (oLen cube4) sys /\
  (exists cap old lists, Forall2 (can_build cap) old sys /\ mapO (fun c => build_on cap 10 rev 1 1 (genToCart cube4) (oLen cube4) (fun _ _ => false) c.1 c.2) (zip old sys) = Ok lists /\
     pair_sums pe_vec (fun _ _ => false) pe_cut pe_f pe_u rev lists (to_cart (genToCart cube4) sys)) /\
  exists t, interacting pe_vec (fun _ _ => false) pe_cut (to_cart (genToCart cube4) sys) t.
Proof.
  intros HE. destruct pe_ready as (HG & HD & HS & HN & _).
  assert (HF : off_faces sys).
  { apply (exchange_off_faces dims2 ex_m ex_s pe_sys sys HG HD HS HN HE). intros w i z Hw Hi. unfold pe_sys in Hw. rewrite held_two in Hw. cbn [map app] in Hw. rewrite !elem_of_cons, elem_of_nil in Hw.
    assert (HZ : forall x : R, (0 < x < 1)%R \/ (1 < x < 2)%R -> x <> IZR z).
    { intros x Hx ->. destruct Hx as [[H1 H2]|[H1 H2]]; apply lt_IZR in H1, H2; lia. }
    destruct Hw as [->|[->|[]]]; apply HZ; (destruct i as [|[|[|]]]; [| | |lia]); cbn [vget snd xPos pe_a pe_b at_ vx vy vz dims2]; lra. }
  destruct (exchange_in_place dims2 ex_m ex_s pe_sys sys HG HD HS HN HE) as (HP & own & HL). pose proof (exchange_sizes dims2 ex_s pe_sys sys HG HE) as HSz.
  assert (HB : forall r p, sys !! r = Some p -> lower (xpDom p) = (V3 (IZR (vx (coords dims2 r)) / 2) (IZR (vy (coords dims2 r)) / 1) (IZR (vz (coords dims2 r)) / 1))%R /\ upper (xpDom p) = (V3 ((IZR (vx (coords dims2 r)) + 1) / 2) ((IZR (vy (coords dims2 r)) + 1) / 1) ((IZR (vz (coords dims2 r)) + 1) / 1))%R).
  { intros r p Hr. unfold lower, upper. pose proof (widths dims2 ex_s sys HP r p Hr) as W. destruct (W 0 ltac:(lia)) as [-> ->], (W 1 ltac:(lia)) as [-> ->], (W 2 ltac:(lia)) as [-> ->]. done. }
  assert (HW : Forall (fun p => (2 * (1 / vz (oLen cube4)) <= vz (upper (xpDom p)) - vz (lower (xpDom p)))%R /\ wide_enough (lower (xpDom p)) (upper (xpDom p)) (scaled 1 (oLen cube4)) 1) sys).
  { apply Forall_forall. intros p Hp. apply elem_of_list_lookup in Hp as [r Hr]. destruct (HB r p Hr) as [-> ->]. rewrite cube4_len. unfold wide_enough, scaled. cbn [vx vy vz]. split; [lra|]. split; [lia|]. split; [lra|]. split; lra. }
  assert (HT : not_thin rev 1 (oLen cube4) sys) by (right; eapply Forall_impl; [exact HW|]; cbn beta; tauto).
  split; [done|]. split; [done|]. split.
  - set (old := map (fun _ : xproc => (dcl_new 0, DPL [] [] [] 0 1)) sys).
    assert (Hold : Forall2 (can_build 54) old sys).
    { unfold old. apply Forall2_fmap_l. apply Forall2_same_length_lookup_2; [done|]. intros r p p' Hp Hp'. assert (p' = p) as -> by congruence. split; [constructor|]. pose proof (proj1 (Forall_forall _ _) HSz p (elem_of_list_lookup_2 _ _ _ Hp)) as X. unfold pe_sys in X. rewrite held_two in X. cbn in X. lia. }
    destruct (dd_lists_build dims2 ex_s sys own (genToCart cube4) (oLen cube4) pe_vec (applyShift cube4) 1 1 rev (fun _ _ => false) 54 10 old) as [lists HBl]; try done; [apply pe_box|lra|lia|eapply Forall_impl; [exact HW|]; cbn beta; tauto| | |].
    + eapply Forall_impl; [exact HSz|]. intros p X. unfold pe_sys in X. rewrite held_two in X. cbn in X. cbn beta. lia.
    + unfold old. apply Forall_fmap. apply Forall_forall. intros p _. cbn. lia.
    + exists 54, old, lists. split; [done|]. split; [done|].
      apply (dd_pair_sums_first dims2 ex_m ex_s pe_sys sys (genToCart cube4) (oLen cube4) pe_vec (applyShift cube4) 1 1 rev (fun _ _ => false) 54 10 old lists pe_cut pe_f pe_u (3/4)); try done; [apply pe_box|lra|apply pe_slab|apply pe_interaction|lra].
  - destruct (all_split dims2 ex_s pe_sys sys HG HE) as (s1 & H1 & H2 & HI & G & HTt & EH & ED). destruct (exchange_atoms_pairs dims2 ex_s pe_sys HG s1 H1) as (l & HPl & HFl).
    assert (HQ : forall w, w ∈ held pe_sys -> exists a k, a ∈ local_addrs sys /\ xId (mem_at sys a) = xId w.2 /\ xPos (mem_at sys a) = translate (xPos w.2) k).
    { intros w Hw. pose proof Hw as Hw'. apply elem_of_list_lookup in Hw' as [x Hx]. destruct (Forall2_lookup_l _ _ _ _ _ HFl Hx) as (v & Hv & E). apply elem_of_list_lookup_2 in Hv. rewrite HPl, <- EH, held_addrs in Hv. apply elem_of_map in Hv as (a & Ev & Ha).
      destruct (held_elem dims2 pe_sys HG w Hw) as (pp & Hpp & _). destruct (M_st dims2 ex_s pe_sys HG w (xpDom pp) Hw pp Hpp eq_refl) as (_ & _ & (M1 & _ & _ & k & M3) & _). rewrite E in M1, M3. rewrite Ev in M1, M3. exists a, k. done. }
    destruct (HQ (0, pe_a)) as (a & ka & Ha & Ia & Ea); [unfold pe_sys; rewrite held_two; by left|]. destruct (HQ (1, pe_b)) as (b & kb & Hb & Ib & Eb); [unfold pe_sys; rewrite held_two; right; by left|].
    exists ((a, b), V3 (vx ka - vx kb - 1) (vy ka - vy kb) (vz ka - vz kb))%Z. unfold interacting. cbn [fst snd]. rewrite (same_local _ _ (cart_lists (genToCart cube4) sys)). split; [done|]. split; [done|].
    split; [left; intros ->; rewrite Ia in Ib; done|]. split; [done|]. unfold separation. cbn [fst snd]. rewrite !mem_cart by (apply addr_lt; auto). cbn [put_pos xPos]. rewrite Ea, Eb. unfold pe_cut, normSq, vdot, vsub, lattice_move, genToCart, translate, pe_vec. rewrite cube4_len.
    cbn [vx vy vz vget vset xPos pe_a pe_b at_ snd]. rewrite !minus_IZR.
    set (x1 := IZR (vx ka)). set (x2 := IZR (vx kb)). set (y1 := IZR (vy ka)). set (y2 := IZR (vy kb)). set (z1 := IZR (vz ka)). set (z2 := IZR (vz kb)).
    match goal with |- (?x * ?x + ?y * ?y + ?z * ?z < _)%R => replace x with (1/2)%R by field; replace y with 0%R by field; replace z with 0%R by field end. lra.
Qed.
Example pe_holds : exists sys, exchange_all ex_s pe_sys = Ok sys.
Proof. apply pe_ready. Qed.
