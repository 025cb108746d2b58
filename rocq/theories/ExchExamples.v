(** Examples for the exchange of atoms and ghosts on two processors, and what is not true. *)
From Verif Require Import Base Containers Vec3 PlanModel OrthoModel BoxSpec OrthoSpec OrthoProofs DomainModel DomainSpec DomainProofs DomainProps SpeciesModel SpeciesProofs SimProofs DistSpec DistExamples ExchModel ExchSpec ExchProofs ExchAtoms ExchElem ExchStart ExchGhost ExchCopies ExchFinal ExchProps.
From Coq Require Import Reals Lra.
Local Open Scope nat_scope.

(** An atom, and a processor with given atoms. *)
Definition at_ (id : Z) (x : vec3 R) : xatom := XA id 0 x 0%N (V3 0 0 0)%R 7.
Definition proc_of (D : domain) (l : list xatom) : xproc :=
  XP D 10 100 (fun h => nth h l (at_ 0 (V3 0 0 0)%R)) (length l) (seq 0 (length l)) [] (fun _ _ => []) (fun _ _ => []).
Definition two (la lb : list xatom) : list xproc := [proc_of (dom2 0) la; proc_of (dom2 1) lb].
Lemma locals_proc D l : locals (proc_of D l) = l.
Proof.
  unfold locals, proc_of. cbn [xpMem xpLocals]. apply list_eq. intros i. rewrite list_lookup_fmap. destruct (decide (i < length l)) as [Hi|Hi].
  - rewrite lookup_seq_lt by done. cbn. destruct (lookup_lt_is_Some_2 l i Hi) as [a E]. rewrite E. f_equal. by apply nth_lookup_Some.
  - rewrite lookup_seq_ge by lia. cbn. symmetry. apply lookup_ge_None. lia.
Qed.
Lemma held_two la lb : held (two la lb) = map (pair 0) la ++ map (pair 1) lb.
Proof. unfold held, two. cbn [length seq flat_map lookup list_lookup]. rewrite !locals_proc, app_nil_r. done. Qed.
Lemma two_grid la lb : grid_system dims2 (two la lb).
Proof.
  split; [exact (proj1 dims2_ok)|exact (proj2 dims2_ok)|]. assert (H : forall D l, NoDup (xpLocals (proc_of D l)) /\ Forall (fun h => h < xpNext (proc_of D l)) (xpLocals (proc_of D l))).
  { intros D l. cbn [proc_of xpLocals xpNext]. split; [apply NoDup_seq|]. apply Forall_forall. intros h Hh. apply elem_of_seq in Hh. lia. }
  unfold two. repeat (constructor; [apply H|]). constructor.
Qed.
Lemma bound2 r i : r < 2 -> i < 3 -> domainBound (dom2 (Z.of_nat r)) i 0 = (match i with 0 => INR r / 2 | _ => 0 end)%R /\ domainBound (dom2 (Z.of_nat r)) i 1 = (match i with 0 => (INR r + 1) / 2 | _ => 1 end)%R.
Proof.
  intros Hr Hi. unfold domainBound. assert (Hd : dDims (dom2 (Z.of_nat r)) = dims2 /\ dCoords (dom2 (Z.of_nat r)) = V3 (Z.of_nat r) 0%Z 0%Z).
  { destruct r as [|[|]]; [done|done|lia]. }
  destruct Hd as [-> ->]. destruct r as [|[|]]; [| |lia]; destruct i as [|[|[|]]]; try lia; cbn [vget dims2 vx vy vz Z.of_nat Pos.of_succ_nat INR]; split; field.
Qed.
Lemma two_displaced m la lb : (forall i, i < 3 -> (0 <= vget m i <= width dims2 i)%R) -> Forall (fun a => within (dom2 0) m (xPos a)) la -> Forall (fun a => within (dom2 1) m (xPos a)) lb ->
  displaced dims2 m (two la lb).
Proof.
  intros Hm H0 H1. split; [done|]. intros p a Hp Ha. unfold two in Hp. rewrite !elem_of_cons, elem_of_nil in Hp. destruct Hp as [->|[->|[]]]; rewrite locals_proc in Ha; cbn [proc_of xpDom].
  - exact (proj1 (Forall_forall _ _) H0 _ Ha).
  - exact (proj1 (Forall_forall _ _) H1 _ Ha).
Qed.
Ltac bnd r := intros i Hi; destruct (bound2 r i ltac:(lia) Hi) as [E0 E1]; change (Z.of_nat 0) with 0%Z in E0, E1; change (Z.of_nat 1) with 1%Z in E0, E1; rewrite E0, E1; clear E0 E1;
  destruct i as [|[|[|]]]; [| | |lia]; cbn [vget vx vy vz xPos at_ INR translate]; lra.

(** One atom has crossed the lower face of the box, the other has not left its domain. *)
Definition ex_a : xatom := at_ 5 (V3 (-1/16) (1/2) (1/2))%R.
Definition ex_b : xatom := at_ 7 (V3 (5/8) (1/8) (1/2))%R.
Definition ex_m : vec3 R := V3 (1/8)%R (1/8)%R (1/8)%R.
Definition ex_s : vec3 R := V3 (1/4)%R (1/4)%R (1/4)%R.
Example ex_ready : grid_system dims2 (two [ex_a] [ex_b]) /\ displaced dims2 ex_m (two [ex_a] [ex_b]) /\ slabs dims2 ex_m ex_s /\
  NoDup (map (fun u => xId u.2) (held (two [ex_a] [ex_b]))) /\ exists sys', exchange_all ex_s (two [ex_a] [ex_b]) = Ok sys'.
Proof.
  assert (HN : NoDup (map (fun u => xId u.2) (held (two [ex_a] [ex_b])))).
  { rewrite held_two. cbn. repeat (apply NoDup_cons; split; [rewrite ?elem_of_cons, elem_of_nil; lia|]). constructor. }
  split; [apply two_grid|]. split.
  { apply two_displaced; [intros [|[|[|]]] Hi; try lia; unfold width; cbn; lra|apply Forall_singleton; unfold ex_m, ex_a; bnd 0|apply Forall_singleton; unfold ex_m, ex_b; bnd 1]. }
  split; [intros [|[|[|]]] Hi; try lia; unfold width; cbn; lra|]. split; [done|].
  apply (exchange_completes dims2); [apply two_grid|done|]. rewrite held_two. unfold two. repeat (constructor; [cbn; lia|]). constructor.
Qed.
(** Processor 0 gets the images of the first atom at x = -1/16 and of the second one beyond its faces in directions x and y; it does not get the latter at y = 1/8 - 1. *)
Example ex_images sys' p : exchange_all ex_s (two [ex_a] [ex_b]) = Ok sys' -> sys' !! 0 = Some p -> xpDom p = dom2 0 ->
  (exists b, b ∈ locals p ++ ghosts p /\ xId b = 5%Z /\ xType b = 0%Z /\ xPos b = (V3 (-1/16) (1/2) (1/2))%R) /\
  (exists b, b ∈ locals p ++ ghosts p /\ xId b = 7%Z /\ xType b = 0%Z /\ xPos b = (V3 (5/8) (9/8) (1/2))%R) /\
  ~ (exists b, b ∈ locals p ++ ghosts p /\ xId b = 7%Z /\ xType b = 0%Z /\ xPos b = (V3 (5/8) (-7/8) (1/2))%R).
Proof.
  intros H Hp Hdom. destruct ex_ready as (HG & HD & HS & HN & _).
  split; [|split].
  - apply (ghosts_complete_before dims2 ex_m ex_s _ sys' HG HD H 0 p HS Hp). exists (0, ex_a), (V3 0 0 0)%Z. split; [rewrite held_two; apply elem_of_list_lookup; by exists 0|].
    split; [done|]. split; [done|]. split; [by rewrite translate_0|]. rewrite Hdom. unfold ex_s. bnd 0.
  - apply (ghosts_complete_before dims2 ex_m ex_s _ sys' HG HD H 0 p HS Hp). exists (1, ex_b), (V3 0 1 0)%Z. split; [rewrite held_two; apply elem_of_list_lookup; by exists 1|].
    split; [done|]. split; [done|]. split; [unfold translate; cbn; f_equal; lra|]. rewrite Hdom. unfold ex_s. bnd 0.
  - intros HB. apply (ghosts_complete_before dims2 ex_m ex_s _ sys' HG HD H 0 p HS Hp) in HB as (u & k & _ & _ & _ & _ & HX). rewrite Hdom in HX. specialize (HX 1 ltac:(lia)).
    destruct (bound2 0 1) as [E0 E1]; [lia|lia|]. change (Z.of_nat 0) with 0%Z in E0, E1. rewrite E0, E1 in HX. unfold ex_s in HX. cbn in HX. lra.
Qed.

(** ** What is not true *)
Lemma yy2 x : yy dims2 0 0 x = (2 * vx x)%R /\ yy dims2 1 0 x = vy x /\ yy dims2 2 0 x = vz x.
Proof.
  unfold yy. assert (E : coords dims2 0 = (V3 0 0 0)%Z) by reflexivity. rewrite E. cbn [vget vx vy vz dims2]. split; [|split]; ring.
Qed.
(** An atom on the upper face of a domain stays there although the domain, as Domain::isInDomain has it, does not contain its upper faces. *)
Theorem atoms_exchanged_half_open_refuted : ~ (forall dims m s sys sys', grid_system dims sys -> displaced dims m sys -> exchangeAtoms s sys = Ok sys' ->
  forall u p, u ∈ held sys' -> sys' !! u.1 = Some p -> isInDomain (xpDom p) (xPos u.2) = true).
Proof.
  intros HA. set (a := at_ 5 (V3 (1/2) (1/2) (1/2))%R). set (m := (V3 0 0 0)%R).
  assert (HG := two_grid [a] []). assert (HD : displaced dims2 m (two [a] [])).
  { apply two_displaced; [intros [|[|[|]]] Hi; try lia; unfold width; cbn; lra|apply Forall_singleton; unfold m, a; bnd 0|constructor]. }
  destruct (exchange_atoms_completes dims2 ex_s (two [a] [])) as [sys' H]; [done|rewrite held_two; cbn; apply NoDup_cons; split; [apply not_elem_of_nil|constructor]| |].
  { rewrite held_two. unfold two. repeat (constructor; [cbn; lia|]). constructor. }
  destruct (exchange_atoms_pairs dims2 ex_s _ HG sys' H) as (l & HP & HF). rewrite held_two in HF. cbn [map app] in HF.
  inversion HF as [|? v ? l' E HF' E1 E2]. subst. inversion HF'. subst. clear HF HF'.
  assert (Hv : v ∈ held sys') by (rewrite <- HP; by left).
  destruct (M_st dims2 ex_s _ HG (0, a) (dom2 0) ltac:(rewrite held_two; by left) (proc_of (dom2 0) [a]) eq_refl eq_refl) as (M1 & _ & _ & M4). rewrite E in M1, M4. cbn [fst snd] in M1, M4.
  specialize (M4 0 ltac:(lia)). cbn [nf xPos] in M4.
  assert (Y0 : yy dims2 0 0 (xPos a) = 1%R) by (rewrite (proj1 (yy2 _)); cbn; lra). rewrite Y0 in M4. destruct (Rlt_dec 1 0) as [|_]; [lra|]. destruct (Rlt_dec 1 1) as [|_]; [lra|].
  destruct (exchange_atoms_raw dims2 ex_s _ HG sys' H) as (HI & _). pose proof (inv_len _ _ _ HI) as HL.
  destruct (lookup_lt_is_Some_2 sys' v.1) as [p Hp]; [lia|]. specialize (HA dims2 m ex_s _ sys' HG HD H v p Hv Hp).
  assert (HDp : domain_of dims2 (Z.of_nat v.1) (xpDom p)). { destruct (iv_dom _ _ _ HI) as [_ HDo]. apply HDo. by rewrite list_lookup_fmap, Hp. }
  destruct (dom_tables dims2 (proj1 dims2_ok) _ _ HDp) as (T1 & T2 & _).
  unfold isInDomain, in_axis in HA. rewrite T1, T2 in HA. unfold yy in M4. change (vget (xPos v.2) 0) with (vx (xPos v.2)) in M4. change (vget dims2 0) with 2%Z in *.
  destruct (Rlt_dec (vx (xPos v.2)) _) as [|_]; [discriminate|]. destruct (Rge_dec (vx (xPos v.2)) _) as [|Hn]; [discriminate|]. apply Hn. lra.
Qed.

(** The domains are wider than the slabs, but atoms that have left their domains are sent on only to one side: an atom at x = -1/10 goes to processor 1, where it is at 9/10, and
    is not sent back to processor 0 as the image at 9/10, although an atom of processor 0 is within the cutoff of this image. *)
Theorem ghosts_complete_wide_refuted : ~ (forall dims m s sys sys' q p,
  grid_system dims sys -> displaced dims m sys -> (forall i, i < 3 -> (0 < vget s i <= width dims i)%R) -> exchange_all s sys = Ok sys' -> sys' !! q = Some p ->
  forall u k, u ∈ held sys' -> near (xpDom p) s (translate (xPos u.2) k) -> exists b, b ∈ locals p ++ ghosts p /\ is_image u.2 k b).
Proof.
  intros HA. set (a := at_ 5 (V3 (-1/10) (1/2) (1/2))%R). set (m := (V3 (1/10) (1/10) (1/10))%R). set (s := (V3 (9/20) (9/20) (9/20))%R).
  pose proof (proj1 dims2_ok) as Hd. assert (HG := two_grid [a] []). assert (HD : displaced dims2 m (two [a] [])).
  { apply two_displaced; [intros [|[|[|]]] Hi; try lia; unfold width; cbn; lra|apply Forall_singleton; unfold m, a; bnd 0|constructor]. }
  assert (HS : forall i, i < 3 -> (0 < vget s i <= width dims2 i)%R) by (intros [|[|[|]]] Hi; try lia; unfold width; cbn; lra).
  destruct (exchange_completes dims2 s (two [a] [])) as [sys' H]; [done|rewrite held_two; cbn; apply NoDup_cons; split; [apply not_elem_of_nil|constructor]| |].
  { rewrite held_two. unfold two. repeat (constructor; [cbn; lia|]). constructor. }
  destruct (all_split dims2 s _ sys' HG H) as (s1 & H1 & _ & HI & G & HT & EH & _).
  destruct (exchange_atoms_pairs dims2 s _ HG s1 H1) as (l & HP & HF). rewrite held_two in HF. cbn [map app] in HF.
  inversion HF as [|? v ? l' E HF' E1 E2]. subst. inversion HF'. subst. clear HF HF'.
  apply Permutation_singleton_l in HP. 
  destruct (M_st dims2 s _ HG (0, a) (dom2 0) ltac:(rewrite held_two; by left) (proc_of (dom2 0) [a]) eq_refl eq_refl) as (M1 & M2 & (_ & _ & _ & k & M3) & M4).
  rewrite E in M1, M2, M3, M4. cbn [fst snd nf xPos xPlan] in M1, M2, M3, M4.
  assert (D0 : domain_of dims2 (Z.of_nat 0) (dom2 0)) by (apply (proj2 dims2_ok); done).
  destruct (flags_yy dims2 Hd 0 (dom2 0) s (xPos a) 0 D0 ltac:(lia)) as (_ & _ & F0 & _).
  assert (Y0 : yy dims2 0 0 (xPos a) = (-1/5)%R /\ yy dims2 1 0 (xPos a) = (1/2)%R /\ yy dims2 2 0 (xPos a) = (1/2)%R) by (destruct (yy2 (xPos a)) as (-> & -> & ->); cbn; lra). destruct Y0 as (Y0 & Y1 & Y2).
  assert (Yv : yy dims2 0 v.1 (xPos v.2) = (4/5)%R /\ yy dims2 1 v.1 (xPos v.2) = (1/2)%R /\ yy dims2 2 v.1 (xPos v.2) = (1/2)%R).
  { rewrite (M4 0), (M4 1), (M4 2) by lia. rewrite Y0, Y1, Y2. repeat match goal with |- context [Rlt_dec ?x ?y] => destruct (Rlt_dec x y); [try (exfalso; lra)|try (exfalso; lra)] end; lra. }
  assert (G0 : gh 0 0 v.2 = false).
  { unfold gh. rewrite M2. destruct (ghost _ 0 0); [|done]. exfalso. destruct (proj1 F0 eq_refl) as [X|X]; rewrite Y0 in X; lra. }
  pose proof (ginv_len _ _ G) as HL. destruct (lookup_lt_is_Some_2 sys' 0) as [p Hp]; [rewrite HL; vm_compute; lia|].
  assert (HDp : domain_of dims2 (Z.of_nat 0) (xpDom p)). { destruct (gi_dom _ _ G) as [_ HDo]. apply HDo. by rewrite list_lookup_fmap, Hp. }
  (* the image that processor 0 does not have *)
  assert (Hk : translate (xPos v.2) (V3 (1 - vx k) (- vy k) (- vz k))%Z = (V3 (9/10) (1/2) (1/2))%R).
  { rewrite M3, translate_translate. unfold translate, a. cbn [vx vy vz at_ xPos]. f_equal; rewrite plus_IZR, ?minus_IZR, ?opp_IZR; lra. }
  destruct (HA dims2 m s _ sys' 0 p HG HD HS H Hp v (V3 (1 - vx k) (- vy k) (- vz k))%Z) as (b & Hb & (I1 & I2 & I3)).
  { rewrite EH, <- HP. by left. }
  { rewrite Hk. apply (near_yy dims2 Hd 0 _ _ _ HDp). intros i Hi. pose proof (yy2 (V3 (9/10) (1/2) (1/2))%R) as YY. destruct i as [|[|[|]]]; [| | |lia]; unfold s; cbn [vget vx vy vz dims2] in *; lra. }
  rewrite Hk in I3. destruct (proj1 (has_LG p (V3 (9/10) (1/2) (1/2))%R (xId v.2) (xType v.2))) as (c & Hc & _ & _ & Ec); [by exists b|].
  apply (LG_elem dims2 s _ sys' HG H 0 p c Hp) in Hc. rewrite HT, <- HP in Hc. cbn [map flat_map] in Hc. rewrite app_nil_r in Hc.
  destruct (copies_inv dims2 Hd (v.1, ng v.2) (0, c) M1 Hc) as (e & He & [_ _ HE]). cbn [fst snd ng xPos] in HE. specialize (HE 0 ltac:(lia)). rewrite (proj1 Yv), Ec in HE.
  specialize (He 0 ltac:(lia)). rewrite (proj1 (yy2 _)) in HE. cbn [vx] in HE. destruct He as [He|[[He Hg]|[He _]]].
  - rewrite He in HE. lra.
  - unfold gh in *. cbn [snd ng xPlan] in Hg. congruence.
  - rewrite He in HE. lra.
Qed.

Print Assumptions atoms_exchanged.
Print Assumptions exchange_completes.
Print Assumptions ghosts_complete.
Print Assumptions ghosts_once.
Print Assumptions neighbours_present.
Print Assumptions ortho_spaced.
Print Assumptions mono_spaced.
Print Assumptions ghosts_complete_wide_refuted.
