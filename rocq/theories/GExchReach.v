(** Proofs about the exchange of groups: images of the other atoms of a group reach its processors. *)
From Verif Require Import Base Containers Vec3 PlanModel PlanSpec PlanProofs DomainModel DomainSpec DomainProofs DomainProps SpeciesModel SpeciesProofs SimProofs DistSpec ExchModel ExchSpec ExchProofs ExchAtoms ExchElem ExchStart ExchGhost ExchCopies ExchFinal GExchModel GExchSpec GExchProofs GExchAtoms GExchOrigin GExchGhosts.
From Coq Require Import Reals Lra.
Local Open Scope R_scope.

(** ** One axis *)
Definition hop (d cA cB : Z) (F0 F1 : Prop) : Prop := exists e z, (e = 0 \/ (e = -1 /\ F0) \/ (e = 1 /\ F1))%Z /\ (cB = cA + e + z * d)%Z.
Lemma int_cases t : -2 < IZR t < 2 -> (t = -1 \/ t = 0 \/ t = 1)%Z.
Proof. intros [H1 H2]. apply lt_IZR in H1, H2. lia. Qed.
Lemma own_axis d w cA cB k yA yB (F0 F1 : Prop) : w <= 1 -> 0 <= yA <= 1 -> 0 <= yB <= 1 -> Rabs (yA + IZR (cA - cB + k * d) - yB) < w -> (yA < w -> F0) -> (1 - w < yA -> F1) -> hop d cA cB F0 F1.
Proof.
  intros Hw HA HB HR H0 H1. apply Rabs_def2 in HR. destruct HR as [R1 R2]. set (z := (cA - cB + k * d)%Z) in *. assert (Z1 : -2 < IZR z < 2) by lra.
  exists (- z)%Z, k. split; [|unfold z; lia]. destruct (int_cases z Z1) as [E|[E|E]]; rewrite E in *.
  - right. right. split; [lia|]. apply H1. lra.
  - left. lia.
  - right. left. split; [lia|]. apply H0. lra.
Qed.
Section axis.
  Context (d cA cB c0 tA tB kA kB : Z) (w md ed yA yB YA YB : R) (F0 F1 : Prop).
  Context (Hd2 : (1 < d)%Z) (Hmd : 0 <= md) (Hw : w + md <= 1) (Hmw : md < w) (Hed : md + ed < 1).
  Context (HA : 0 <= yA <= 1) (HB : 0 <= yB <= 1) (EA : YA = yA + IZR tA) (EB : YB = yB + IZR tB) (ETA : tA = (kA * d + cA - c0)%Z) (ETB : tB = (kB * d + cB - c0)%Z).
  Context (HAB : Rabs (YA - YB) <= ed) (HL : - md <= YA <= 1 + md \/ - md <= YB <= 1 + md).
  Context (O0 : yA < w -> F0) (O1 : 1 - w < yA -> F1).
  Lemma YA_range : -1 < YA < 2.
  Proof. assert (X := HAB). apply Rabs_le_between in X || (unfold Rabs in X; destruct (Rcase_abs _) in X); destruct HL; lra. Qed.
  Lemma YB_range : -1 < YB < 2.
  Proof. assert (X := HAB). unfold Rabs in X; destruct (Rcase_abs _) in X; destruct HL; lra. Qed.
  Lemma tA_cases : (tA = -1 \/ tA = 0 \/ tA = 1)%Z.
  Proof. apply int_cases. pose proof YA_range. lra. Qed.
  Lemma tB_cases : (tB = -1 \/ tB = 0 \/ tB = 1)%Z.
  Proof. apply int_cases. pose proof YB_range. lra. Qed.
  Lemma same_axis : cA = c0 -> (tA = 0%Z -> tB = (-1)%Z -> F0) -> (tA = 0%Z -> tB = 1%Z -> F1) -> hop d cA cB F0 F1.
  Proof.
    intros Ec G0 G1. assert (T0 : tA = 0%Z). { destruct tA_cases as [E|[E|E]]; [|done|]; exfalso; assert (kA = 0%Z \/ kA <> 0%Z) as [K|K] by lia; [rewrite K in ETA; lia|nia|rewrite K in ETA; lia|nia]. }
    exists tB, (- kB)%Z. split; [|lia]. destruct tB_cases as [E|[E|E]]; [right; left|left|right; right]; auto.
  Qed.
  Lemma down_axis zz kk Y' : cA = (c0 - 1 + zz * d)%Z -> YA = Y' + IZR (kk * d) -> - md <= Y' < 0 -> yA = Y' + 1 -> hop d cA cB F0 F1.
  Proof.
    intros Ec EY HY Ey. assert (G1 : F1) by (apply O1; lra). destruct tB_cases as [E|[E|E]].
    - exists 0%Z, (- zz - kB)%Z. split; [by left|]. lia.
    - exists 1%Z, (- zz - kB)%Z. split; [by right; right|]. lia.
    - destruct (decide (d = 2)%Z) as [->|D3]; [exists 0%Z, (1 - zz - kB)%Z; split; [by left|]; clear - Ec ETB E; lia|]. exfalso. pose proof YA_range as RA. assert (K : kk = 0%Z).
      { assert (-1 < IZR (kk * d) < 3) as [K1 K2] by lra. apply lt_IZR in K1, K2. nia. }
      rewrite K, Z.mul_0_l in EY. rewrite E in EB. assert (X := HAB). unfold Rabs in X. destruct (Rcase_abs _); lra.
  Qed.
  Lemma up_axis zz kk Y' : cA = (c0 + 1 + zz * d)%Z -> YA = Y' + IZR (kk * d) -> 1 < Y' <= 1 + md -> yA = Y' - 1 -> hop d cA cB F0 F1.
  Proof.
    intros Ec EY HY Ey. assert (G0 : F0) by (apply O0; lra). destruct tB_cases as [E|[E|E]].
    - destruct (decide (d = 2)%Z) as [->|D3]; [exists 0%Z, (-1 - zz - kB)%Z; split; [by left|]; clear - Ec ETB E; lia|]. exfalso. pose proof YA_range as RA. assert (K : kk = 0%Z).
      { assert (-3 < IZR (kk * d) < 1) as [K1 K2] by lra. apply lt_IZR in K1, K2. nia. }
      rewrite K, Z.mul_0_l in EY. rewrite E in EB. assert (X := HAB). unfold Rabs in X. destruct (Rcase_abs _); lra.
    - exists (-1)%Z, (- zz - kB)%Z. split; [by right; left|]. lia.
    - exists 0%Z, (- zz - kB)%Z. split; [by left|]. lia.
  Qed.
End axis.

(** ** Marks of groups *)
Section marks.
  Context (dims : vec3 Z) (Hd : grid_ok dims) (s : vec3 R) (G : list bond) (r0 : nat) (q : gproc) (Hdom : domain_of dims (Z.of_nat r0) (xpDom (gpX q))) (HO : groups_ok G q).
  Context (g : ggroup) (Hg : g ∈ gpGroups q) (x : vec3 R) (i : nat) (Hi : (i < 3)%nat) (k : nat) (id : Z) (h : nat) (Hk : gAtoms g !! k = Some id) (Hh : points g k h).
  Context (HWl : h ∈ xpLocals (gpX q) -> x = xPos (xpMem (gpX q) h)) (HWg : h ∈ xpGhosts (gpX q) -> Rabs (vget (xPos (xpMem (gpX q) h)) i - vget x i) < vget s i).
  Notation mem1 := (xpMem (xstart s (gpX q))).
  Notation Y := (yy dims i r0 x).
  Notation D := (xpDom (gpX q)).
  Lemma ptr_in : h ∈ ptrs g.
  Proof. apply elem_ptrs. by eapply elem_of_list_lookup_2. Qed.
  Lemma start_local : h ∈ xpLocals (gpX q) -> h ∉ xpGhosts (gpX q) /\ xPlan (mem1 h) = plan_atom D s x.
  Proof.
    intros Hl. split; [intros X; by apply (proj2 (proj2 (proj2 HO)) h X)|]. unfold xstart. xc. rewrite decide_True by done. cbn [xPlan]. by rewrite HWl.
  Qed.
  Lemma start_ghost : h ∉ xpLocals (gpX q) -> h ∈ xpGhosts (gpX q) /\ mem1 h = xpMem (gpX q) h.
  Proof.
    intros Hl. split; [by destruct (proj1 (proj2 (proj2 HO)) g k id (conj Hg Hk) h Hh) as [?|[? _]]|]. unfold xstart. xc. by rewrite decide_False.
  Qed.
  Lemma ghost_bounds : h ∉ xpLocals (gpX q) -> let z := vget (xPos (mem1 h)) i in
    (Y <= 0 -> z < xinner D (vget s i) i 0) /\ (0 <= Y -> xouter D (vget s i) i 0 < z) /\ (1 <= Y -> xinner D (vget s i) i 1 < z) /\ (Y <= 1 -> z < xouter D (vget s i) i 1).
  Proof.
    intros Hl z. destruct (start_ghost Hl) as [H1 H2]. unfold z. rewrite H2. specialize (HWg H1). apply Rabs_def2 in HWg as [W1 W2]. unfold xinner, xouter. destruct (bounds dims Hd r0 D i Hdom) as [-> ->]. unfold yy.
    pose proof (dd_pos dims Hd i) as Hp. set (c := IZR (vget (coords dims r0) i)) in *. set (d := IZR (vget dims i)) in *. set (xi := vget x i) in *.
    assert (A0 : xi = (xi * d - c) / d + c / d) by (field; lra). assert (A1 : xi = (xi * d - c - 1) / d + (c + 1) / d) by (field; lra).
    assert (Hq : 0 < / d) by (by apply Rinv_0_lt_compat). unfold Rdiv in *.
    split; [|split; [|split]]; intros HY.
    - assert ((xi * d - c) * / d <= 0) by nra. lra.
    - assert (0 <= (xi * d - c) * / d) by nra. lra.
    - assert (0 <= (xi * d - c - 1) * / d) by nra. lra.
    - assert ((xi * d - c - 1) * / d <= 0) by nra. lra.
  Qed.
  Lemma out0 : Y <= 0 -> (h ∈ xpLocals (gpX q) -> Y < 0) -> g_out D s mem1 (xpGhosts (gpX q)) i 0 h = true.
  Proof.
    intros H0 H1. unfold g_out. destruct (decide (h ∈ xpLocals (gpX q))) as [Hl|Hl].
    - destruct (start_local Hl) as [Hn ->]. rewrite decide_False by done. apply (proj1 (flags_yy dims Hd r0 D s x i Hdom Hi)). by apply H1.
    - destruct (start_ghost Hl) as [Hn _]. rewrite decide_True by done. destruct (ghost_bounds Hl) as (B & _). destruct (Rlt_dec _ _) as [|N]; [done|]. by destruct N; apply B.
  Qed.
  Lemma in0 : 0 <= Y -> g_in D s mem1 (xpGhosts (gpX q)) i 0 h = true.
  Proof.
    intros H0. unfold g_in. destruct (decide (h ∈ xpLocals (gpX q))) as [Hl|Hl].
    - destruct (start_local Hl) as [Hn ->]. rewrite decide_False by done. pose proof (proj1 (flags_yy dims Hd r0 D s x i Hdom Hi)) as F. destruct (exchange _ _ _); [|done]. assert (Y < 0) by (by apply F). lra.
    - destruct (start_ghost Hl) as [Hn _]. rewrite decide_True by done. destruct (ghost_bounds Hl) as (_ & B & _). destruct (Rlt_dec _ _) as [|N]; [done|]. by destruct N; apply B.
  Qed.
  Lemma out1 : 1 <= Y -> (h ∈ xpLocals (gpX q) -> 1 < Y) -> g_out D s mem1 (xpGhosts (gpX q)) i 1 h = true.
  Proof.
    intros H0 H1. unfold g_out. destruct (decide (h ∈ xpLocals (gpX q))) as [Hl|Hl].
    - destruct (start_local Hl) as [Hn ->]. rewrite decide_False by done. apply (proj2 (flags_yy dims Hd r0 D s x i Hdom Hi)). by apply H1.
    - destruct (start_ghost Hl) as [Hn _]. rewrite decide_True by done. destruct (ghost_bounds Hl) as (_ & _ & B & _). destruct (Rlt_dec _ _) as [|N]; [done|]. by destruct N; apply B.
  Qed.
  Lemma in1 : Y <= 1 -> g_in D s mem1 (xpGhosts (gpX q)) i 1 h = true.
  Proof.
    intros H0. unfold g_in. destruct (decide (h ∈ xpLocals (gpX q))) as [Hl|Hl].
    - destruct (start_local Hl) as [Hn ->]. rewrite decide_False by done. pose proof (proj1 (proj2 (flags_yy dims Hd r0 D s x i Hdom Hi))) as F. destruct (exchange _ _ _); [|done]. assert (1 < Y) by (by apply F). lra.
    - destruct (start_ghost Hl) as [Hn _]. rewrite decide_True by done. destruct (ghost_bounds Hl) as (_ & _ & _ & B). destruct (Rlt_dec _ _) as [|N]; [done|]. by destruct N; apply B.
  Qed.
End marks.

Section reach.
  Context (dims : vec3 Z) (m s : vec3 R) (G : list bond) (sys sys1 : list gproc).
  Context (HG : group_system dims G sys) (HD : displaced dims m (map gpX sys)) (H : gexchangeAtoms s sys = Ok sys1) (HS : slabs dims m s).
  Notation n := (n_proc dims).
  Notation crd r i := (vget (coords dims r) i).
  Notation fin := (fin dims m s sys).
  Let Hd : grid_ok dims := gs_grid _ _ (gy_grid _ _ _ HG).

  Lemma w_dd i : (i < 3)%nat -> 0 < vget s i * IZR (vget dims i) /\ vget s i * IZR (vget dims i) + vget m i * IZR (vget dims i) <= 1.
  Proof.
    intros Hi. destruct (HS i Hi) as [H1 H2]. unfold width in H2. pose proof (dd_pos dims Hd i) as Hp. split; [by apply Rmult_lt_0_compat|].
    rewrite <- Rmult_plus_distr_r. replace 1 with (/ IZR (vget dims i) * IZR (vget dims i)) by (field; lra). apply Rmult_le_compat_r; lra.
  Qed.
  Lemma hop_reaches i (u v : nat * xatom) : hop (vget dims i) (crd u.1 i) (crd v.1 i) (ghost (xPlan u.2) i 0 = true) (ghost (xPlan u.2) i 1 = true) -> reaches dims i (u.1, ng u.2) v.1.
  Proof. intros (e & z & He & E). exists e, z. split; [|done]. unfold allowed, gh. cbn. tauto. Qed.
  (** Groups whose atoms are closer than the slab width. *)
  Lemma reach_close : close dims s G (map gpX sys) -> forall b u v, b ∈ G -> u ∈ held (map gpX sys1) -> v ∈ held (map gpX sys1) -> xId u.2 ∈ bAtoms b -> xId v.2 ∈ bAtoms b ->
    forall i, (i < 3)%nat -> (1 < vget dims i)%Z -> reaches dims i (u.1, ng u.2) v.1.
  Proof.
    intros HC b u v Hb Hu Hv Iu Iv i Hi B. destruct (fin_of dims m s G sys sys1 HG HD H u Hu) as [u0 Fu]. destruct (fin_of dims m s G sys sys1 HG HD H v Hv) as [v0 Fv].
    rewrite (fn_id _ _ _ _ _ _ Fu) in Iu. rewrite (fn_id _ _ _ _ _ _ Fv) in Iv. destruct (HC b u0 v0 Hb (fn_u _ _ _ _ _ _ Fu) (fn_u _ _ _ _ _ _ Fv) Iu Iv) as [k Hk]. specialize (Hk i Hi B).
    destruct (fn_img _ _ _ _ _ _ Fu) as [ku Eu]. destruct (fn_img _ _ _ _ _ _ Fv) as [kv Ev]. destruct (fn_flags _ _ _ _ _ _ Fu HS i Hi) as [F0 F1]. destruct (w_dd i Hi) as [W1 W2]. pose proof (m_dd dims m G sys HG HD i Hi) as M1.
    apply hop_reaches. refine (own_axis _ _ _ _ (vget k i - vget ku i + vget kv i) _ _ _ _ _ (fin_in dims m s G sys HG HD u0 u Fu i Hi) (fin_in dims m s G sys HG HD v0 v Fv i Hi) _ F0 F1); [lra|].
    rewrite Eu, Ev, !yy_translate by done. rewrite vget_translate in Hk by done. pose proof (dd_pos dims Hd i) as Hp.
    replace (_ - _) with ((vget (xPos u0.2) i + IZR (vget k i) - vget (xPos v0.2) i) * IZR (vget dims i)).
    - rewrite Rabs_mult, (Rabs_right (IZR _)) by lra. by apply Rmult_lt_compat_r.
    - rewrite !plus_IZR, !minus_IZR, !mult_IZR, !plus_IZR, !minus_IZR. lra.
  Qed.

  (** The ids of the local atoms remain, and are different on all processors. *)
  Lemma held1_perm : map (fun u => xId u.2) (held (map gpX sys1)) ≡ₚ map (fun u => xId u.2) (held (map gpX sys)).
  Proof.
    destruct (gexchange_atoms_raw dims G s sys HG sys1 H) as (mid & xs & HF & E1 & HX & Exs & HM & HR & HRm & HI & HRd & _).
    assert (EI : map (fun u => xId u.2) (held (map gpX sys1)) = map (fun u => xId u.2) (held xs)).
    { unfold held. rewrite (Forall2_length _ _ _ HM), !map_flat_map. apply flat_map_ext_in. intros r _. destruct (map gpX sys1 !! r) as [p|] eqn:Ep.
      - destruct (Forall2_lookup_r _ _ _ _ _ HM Ep) as (p0 & Hp0 & [(_ & EL & _ & EM) _ _]). rewrite Hp0. unfold locals. rewrite !map_map, EL. apply map_ext_elem. intros h _. cbn. apply EM.
      - rewrite (proj2 (lookup_ge_None xs r)); [done|]. apply lookup_ge_None in Ep. pose proof (Forall2_length _ _ _ HM). lia. }
    rewrite EI. destruct (exchange_atoms_pairs dims s _ (gy_grid _ _ _ HG) xs HX) as (l & HP & HF2). rewrite <- HP. match goal with |- ?a ≡ₚ ?b => assert (EQ : a = b); [|by rewrite EQ] end.
    apply list_eq. intros x. rewrite !list_lookup_fmap. destruct (held (map gpX sys) !! x) as [u0|] eqn:Ex.
    - destruct (Forall2_lookup_l _ _ _ _ _ HF2 Ex) as (v0 & Hv0 & E0). rewrite Hv0. cbn. f_equal. apply elem_of_list_lookup_2 in Ex. destruct (held_elem dims _ (gy_grid _ _ _ HG) u0 Ex) as (p0 & Hp0 & _).
      destruct (M_st dims s _ (gy_grid _ _ _ HG) u0 (xpDom p0) Ex p0 Hp0 eq_refl) as (_ & _ & (M3 & _) & _). rewrite E0 in M3. cbn in M3. congruence.
    - rewrite (proj2 (lookup_ge_None l x)); [done|]. apply lookup_ge_None in Ex. pose proof (Forall2_length _ _ _ HF2). lia.
  Qed.
  Lemma held1_nodup : NoDup (map (fun u => xId u.2) (held (map gpX sys1))).
  Proof. rewrite held1_perm. apply HG. Qed.
  Lemma held1_ids u v : u ∈ held (map gpX sys1) -> v ∈ held (map gpX sys1) -> xId u.2 = xId v.2 -> u = v.
  Proof.
    intros Hu Hv E. pose proof held1_nodup as ND.
    apply elem_of_list_lookup in Hu as [x Hx], Hv as [y Hy]. assert (x = y); [|congruence].
    apply (NoDup_lookup _ _ _ (xId u.2) ND); rewrite list_lookup_fmap; [by rewrite Hx|by rewrite Hy, E].
  Qed.
  Lemma held_at (xs : list xproc) u : u ∈ held xs -> exists p h, xs !! u.1 = Some p /\ h ∈ xpLocals p /\ u.2 = xpMem p h.
  Proof.
    unfold held. intros Hu. apply elem_of_flat_map in Hu as (r & Hr & Hu). destruct (xs !! r) as [p|] eqn:Ep; [|by apply elem_of_nil in Hu]. apply elem_of_map in Hu as (b & -> & Hb). unfold locals in Hb. apply elem_of_map in Hb as (h & -> & Hh). eauto.
  Qed.
  Lemma at_held (xs : list xproc) r p h : xs !! r = Some p -> h ∈ xpLocals p -> (r, xpMem p h) ∈ held xs.
  Proof.
    intros Hp Hh. unfold held. apply elem_of_flat_map. exists r. split; [apply elem_of_seq; apply lookup_lt_Some in Hp; lia|]. rewrite Hp. apply elem_of_map. exists (xpMem p h). split; [done|]. unfold locals. apply elem_of_map. eauto.
  Qed.

  (** Bonds: groups with two atoms. *)
  Context (e : vec3 R) (Hms : forall i, (i < 3)%nat -> vget m i < vget s i) (Hem : forall i, (i < 3)%nat -> vget e i + vget m i < width dims i).
  Context (HPl : forall r q g, sys !! r = Some q -> g ∈ gpGroups q -> placed dims s e (map gpX sys) q g).
  Lemma reach_bond b u v : b ∈ G -> (length (bAtoms b) <= 2)%nat -> u ∈ held (map gpX sys1) -> v ∈ held (map gpX sys1) -> xId u.2 ∈ bAtoms b -> xId v.2 ∈ bAtoms b -> xId u.2 <> xId v.2 ->
    forall i, (i < 3)%nat -> (1 < vget dims i)%Z -> reaches dims i (u.1, ng u.2) v.1.
  Proof.
    intros Hb Hlen Hu Hv Iu Iv Hne i Hi B. destruct (fin_of dims m s G sys sys1 HG HD H u Hu) as [u0 Fu]. destruct (fin_of dims m s G sys sys1 HG HD H v Hv) as [v0 Fv].
    destruct (decide (u.1 = v.1)) as [Er|Hr].
    { exists 0%Z, 0%Z. split; [by left|]. cbn [fst]. rewrite Er. lia. }
    assert (H2 : forall id, id ∈ bAtoms b -> id = xId u.2 \/ id = xId v.2).
    { intros id Hid. clear - Hlen Iu Iv Hne Hid. destruct (bAtoms b) as [|x [|y [|z l]]]; cbn in Hlen; [| | |lia]; rewrite ?elem_of_cons, ?elem_of_nil in *; naive_solver. }
    (* the record on the processor of u, and its origin *)
    destruct (gexchange_atoms_raw dims G s sys HG sys1 H) as (mid & xs & HF & E1 & HX & Exs & HM & HR & HRm & HI & HRd & _).
    destruct (held_at _ u Hu) as (p1 & hu & Hp1 & Hhu & Eu2). rewrite list_lookup_fmap in Hp1. destruct (sys1 !! u.1) as [q1|] eqn:Hq1; [|done]. cbn in Hp1. injection Hp1 as <-. pose proof (HR _ _ Hq1) as R1.
    assert (Hbg : b ∈ map bond_of (gpGroups q1)).
    { apply (rt_in _ _ _ _ R1). split; [done|]. exists hu. rewrite <- Eu2. done. }
    apply elem_of_map in Hbg as (g & Eb & Hg). rewrite E1, list_lookup_fmap in Hq1. destruct (mid !! u.1) as [qm|] eqn:Hqm; [|done]. cbn in Hq1. injection Hq1 as Hq1.
    assert (Hgm : g ∈ gpGroups qm) by (rewrite <- Hq1 in Hg; exact Hg).
    assert (EA : gAtoms g = bAtoms b) by (by rewrite Eb).
    assert (Hinc : is_complete g = false).
    { destruct (is_complete g) eqn:EC; [|done]. exfalso. apply Hr. pose proof (rt_ptrs _ _ _ _ R1 g Hg) as EP. rewrite <- EA in Iv. apply elem_of_list_lookup in Iv as [k Hk].
      destruct (proj1 (complete_points g ltac:(by rewrite EP, map_length)) EC k _ Hk) as [h Hh]. unfold points in Hh. rewrite EP, list_lookup_fmap, Hk in Hh. cbn in Hh. injection Hh as Hh. apply find_atom_Some in Hh as [Hh1 Hh2].
      assert (X : (u.1, xpMem (gpX q1) h) = v); [|by rewrite <- X]. apply held1_ids; [|done|done]. apply at_held; [|done]. rewrite list_lookup_fmap, E1, list_lookup_fmap, Hqm. change (Some (gpX (gmarkGhosts qm)) = Some (gpX q1)). by rewrite Hq1. }
    assert (HDm : domain_of dims (Z.of_nat u.1) (xpDom (gpX qm))).
    { apply (dom_at dims (map gpX mid) u.1); [rewrite <- Exs; apply HI|]. by rewrite list_lookup_fmap, Hqm. }
    assert (HFl : forall j, (j < 2)%nat -> ghost (gPlan g) i j = true -> ghost (xPlan u.2) i j = true).
    { intros j Hj Hgh. rewrite Eu2, <- Hq1. refine (proj2 (markGhosts_mk qm _) g Hgm Hinc i j hu Hi Hj _ Hgh _).
      - intros g' h' Hg' Hh'. by apply (right_ptr _ _ _ _ _ _ (HRm _ _ Hqm) Hg') in Hh' as [? _].
      - rewrite (flag_iff dims Hd u.1 _ i HDm Hi). by rewrite bool_decide_eq_true_2.
      - apply (right_ptr _ _ _ _ _ _ R1 Hg). split; [done|]. by rewrite <- Eu2, EA. }
    destruct (origins dims G s sys mid HG HF u.1 qm g Hqm Hgm) as (r0 & qs & gs & Hqs & Hgs & EBs & EPs & HOr). specialize (HOr i Hi). rewrite list_lookup_fmap in Hqs. destruct (sys !! r0) as [q0|] eqn:Hq0; [|done]. cbn in Hqs. injection Hqs as <-.
    unfold gstart in Hgs. gc. apply elem_of_map in Hgs as (g0 & -> & Hg0). assert (EA0 : gAtoms g0 = bAtoms b) by (rewrite <- EA; exact (f_equal bAtoms EBs)).
    assert (HD0 : domain_of dims (Z.of_nat r0) (xpDom (gpX q0))).
    { apply (dom_at dims (map gpX sys) r0); [exact (gs_domains _ _ (gy_grid _ _ _ HG))|]. by rewrite list_lookup_fmap, Hq0. }
    pose proof (proj1 (Forall_forall _ _) (gy_groups _ _ _ HG) q0 (elem_of_list_lookup_2 _ _ _ Hq0)) as GO.
    assert (Hr0 : (r0 < n)%nat). { destruct (gs_domains _ _ (gy_grid _ _ _ HG)) as [X _]. rewrite !map_length in X. rewrite <- X. by eapply lookup_lt_Some. }
    destruct (HPl r0 q0 g0 Hq0 Hg0) as (W & HW & HWp & HWe).
    (* the coordinates *)
    set (d := vget dims i) in *. set (dR := IZR d). pose proof (dd_pos dims Hd i) as Hp. fold d in Hp. fold dR in Hp.
    assert (HC : forall (a a0 : nat * xatom), fin a0 a -> xId a.2 ∈ bAtoms b -> exists k t kk, yy dims i r0 (W (xId a.2)) = yy dims i a.1 (xPos a.2) + IZR t /\ t = (k * d + crd a.1 i - crd r0 i)%Z /\ W (xId a.2) = translate (xPos a0.2) kk).
    { intros a a0 F Ia. destruct (HW (xId a.2)) as (x & k & Hx & Ex & EW); [by rewrite EA0|]. assert (x = a0) as -> by (apply (held_unique dims G sys HG); [done|apply F|rewrite Ex; apply F]).
      destruct (fn_img _ _ _ _ _ _ F) as [k' Ek]. exists (vget k i - vget k' i)%Z, ((vget k i - vget k' i) * d + crd a.1 i - crd r0 i)%Z, k. split; [|done]. rewrite EW, Ek, !yy_translate by done. fold d. rewrite !minus_IZR, plus_IZR, !mult_IZR, minus_IZR. lra. }
    destruct (HC u u0 Fu Iu) as (kA & tA & kkA & EYA & ETA & EWA). destruct (HC v v0 Fv Iv) as (kB & tB & kkB & EYB & ETB & EWB).
    assert (HLoc : forall (a a0 : nat * xatom) h, fin a0 a -> h ∈ xpLocals (gpX q0) -> xId (xpMem (gpX q0) h) = xId a.2 -> a0 = (r0, xpMem (gpX q0) h)).
    { intros a a0 h F Hh E. apply (held_unique dims G sys HG); [apply F| |]; [|cbn [snd]; rewrite E; symmetry; apply F]. apply at_held; [|done]. by rewrite list_lookup_fmap, Hq0. }
    assert (HLW : forall (a a0 : nat * xatom) h, fin a0 a -> xId a.2 ∈ bAtoms b -> h ∈ xpLocals (gpX q0) -> xId (xpMem (gpX q0) h) = xId a.2 -> W (xId a.2) = xPos a0.2 /\ a0.1 = r0).
    { intros a a0 h F Ia Hh E. pose proof (HLoc a a0 h F Hh E) as Ea. rewrite Ea. split; [|done]. cbn [snd]. rewrite <- EA0 in Ia. apply elem_of_list_lookup in Ia as [k Hk].
      apply (HWp k _ h Hk); [|done]. apply (proj1 (proj2 GO) g0 k _ (conj Hg0 Hk) h Hh). done. }
    assert (HSome : (exists h, h ∈ xpLocals (gpX q0) /\ xId (xpMem (gpX q0) h) = xId u.2) \/ (exists h, h ∈ xpLocals (gpX q0) /\ xId (xpMem (gpX q0) h) = xId v.2)).
    { destruct (proj1 (so_local _ _ (proj1 GO) (bond_of g0)) (elem_bond _ _ Hg0)) as (_ & a & Ha & Ia). cbn in Ia. rewrite EA0 in Ia. unfold locals in Ha. apply elem_of_map in Ha as (h & -> & Hh). destruct (H2 _ Ia) as [E|E]; [left|right]; eauto. }
    pose proof (fin_in dims m s G sys HG HD u0 u Fu i Hi) as YA. pose proof (fin_in dims m s G sys HG HD v0 v Fv i Hi) as YB.
    destruct (fn_flags _ _ _ _ _ _ Fu HS i Hi) as [F0 F1]. destruct (w_dd i Hi) as [W1 W2]. pose proof (m_dd dims m G sys HG HD i Hi) as M1. fold d dR in W1, W2, M1, F0, F1.
    assert (HAB : Rabs (yy dims i r0 (W (xId u.2)) - yy dims i r0 (W (xId v.2))) <= vget e i * dR).
    { unfold yy. fold d dR. replace (_ - _) with ((vget (W (xId u.2)) i - vget (W (xId v.2)) i) * dR) by lra. rewrite Rabs_mult, (Rabs_right dR) by lra. apply Rmult_le_compat_r; [lra|]. apply HWe; [by rewrite EA0|by rewrite EA0|done|done]. }
    assert (Hed : vget m i * dR + vget e i * dR < 1).
    { pose proof (Hem i Hi) as X. unfold width in X. fold d dR in X. rewrite <- Rmult_plus_distr_r. replace 1 with (/ dR * dR) by (field; lra). apply Rmult_lt_compat_r; lra. }
    assert (Hmw : vget m i * dR < vget s i * dR) by (apply Rmult_lt_compat_r; [lra|by apply Hms]).
    assert (HL : - (vget m i * dR) <= yy dims i r0 (W (xId u.2)) <= 1 + vget m i * dR \/ - (vget m i * dR) <= yy dims i r0 (W (xId v.2)) <= 1 + vget m i * dR).
    { destruct HSome as [(h & Hh & E)|(h & Hh & E)]; [left; destruct (HLW u u0 h Fu Iu Hh E) as [-> <-]; exact (fn_in _ _ _ _ _ _ Fu i Hi)|right; destruct (HLW v v0 h Fv Iv Hh E) as [-> <-]; exact (fn_in _ _ _ _ _ _ Fv i Hi)]. }
    apply hop_reaches. destruct HOr as [Ec|(j & x & _ & Hj & _ & Hx & Ix & Hex & Ecx & Ecu & _)].
    - (* no shift along this axis *)
      refine (same_axis d (crd u.1 i) (crd v.1 i) (crd r0 i) tA tB kA kB (vget m i * dR) (vget e i * dR) _ _ _ _ _ _ B Hed YA YB EYA EYB ETA ETB HAB HL Ec _ _).
      + intros TA TB. apply (HFl 0%nat); [lia|]. rewrite <- EPs. change (ghost (group_plan (xpDom (gpX q0)) s (xpMem (xstart s (gpX q0))) (xpGhosts (gpX q0)) g0) i 0 = true). rewrite (group_plan_flag _ _ _ _ _ i 0 Hi ltac:(lia)); [|rewrite (flag_iff dims Hd r0 _ i HD0 Hi); by rewrite bool_decide_eq_true_2].
        destruct (is_complete g0) eqn:EC; [|done]. pose proof (proj1 (complete_points g0 (so_ptrs _ _ (proj1 GO) g0 Hg0)) EC) as CP.
        unfold spans. apply andb_true_iff. rewrite !existsb_exists. rewrite TA, Rplus_0_r in EYA. rewrite TB in EYB. pose proof Iu as Iu'. pose proof Iv as Iv'. rewrite <- EA0 in Iu', Iv'. apply elem_of_list_lookup in Iu' as [ku Hku], Iv' as [kv Hkv].
        destruct (CP _ _ Hku) as [hA HhA]. destruct (CP _ _ Hkv) as [hB HhB]. destruct (HWp _ _ _ Hku HhA) as [WA1 WA2]. destruct (HWp _ _ _ Hkv HhB) as [WB1 WB2]. split.
        * exists hB. split; [apply elem_of_list_In; exact (ptr_in g0 kv hB HhB)|].
          refine (out0 dims Hd s G r0 q0 HD0 GO g0 Hg0 (W (xId v.2)) i Hi kv _ hB Hkv HhB WB1 (fun X => WB2 X i Hi B) _ _); [lra|].
          intros Hl. assert (Eid : xId (xpMem (gpX q0) hB) = xId v.2) by (apply (proj1 (proj2 GO) g0 kv _ (conj Hg0 Hkv) hB Hl); exact HhB).
          destruct (HLW v v0 hB Fv Iv Hl Eid) as [EW Er0]. pose proof (fn_y _ _ _ _ _ _ Fv i Hi) as Y. cbv zeta in Y. rewrite Er0, <- EW in Y. destruct (Rlt_dec _ 0) as [|N]; [done|]. destruct (Rlt_dec 1 _); lra.
        * exists hA. split; [apply elem_of_list_In; exact (ptr_in g0 ku hA HhA)|].
          refine (in0 dims Hd s G r0 q0 HD0 GO g0 Hg0 (W (xId u.2)) i Hi ku _ hA Hku HhA WA1 (fun X => WA2 X i Hi B) _); lra.
      + intros TA TB. apply (HFl 1%nat); [lia|]. rewrite <- EPs. change (ghost (group_plan (xpDom (gpX q0)) s (xpMem (xstart s (gpX q0))) (xpGhosts (gpX q0)) g0) i 1 = true). rewrite (group_plan_flag _ _ _ _ _ i 1 Hi ltac:(lia)); [|rewrite (flag_iff dims Hd r0 _ i HD0 Hi); by rewrite bool_decide_eq_true_2].
        destruct (is_complete g0) eqn:EC; [|done]. pose proof (proj1 (complete_points g0 (so_ptrs _ _ (proj1 GO) g0 Hg0)) EC) as CP.
        unfold spans. apply andb_true_iff. rewrite !existsb_exists. rewrite TA, Rplus_0_r in EYA. rewrite TB in EYB. pose proof Iu as Iu'. pose proof Iv as Iv'. rewrite <- EA0 in Iu', Iv'. apply elem_of_list_lookup in Iu' as [ku Hku], Iv' as [kv Hkv].
        destruct (CP _ _ Hku) as [hA HhA]. destruct (CP _ _ Hkv) as [hB HhB]. destruct (HWp _ _ _ Hku HhA) as [WA1 WA2]. destruct (HWp _ _ _ Hkv HhB) as [WB1 WB2]. split.
        * exists hB. split; [apply elem_of_list_In; exact (ptr_in g0 kv hB HhB)|].
          refine (out1 dims Hd s G r0 q0 HD0 GO g0 Hg0 (W (xId v.2)) i Hi kv _ hB Hkv HhB WB1 (fun X => WB2 X i Hi B) _ _); [lra|].
          intros Hl. assert (Eid : xId (xpMem (gpX q0) hB) = xId v.2) by (apply (proj1 (proj2 GO) g0 kv _ (conj Hg0 Hkv) hB Hl); exact HhB).
          destruct (HLW v v0 hB Fv Iv Hl Eid) as [EW Er0]. pose proof (fn_y _ _ _ _ _ _ Fv i Hi) as Y. cbv zeta in Y. rewrite Er0, <- EW in Y. destruct (Rlt_dec _ 0) as [|N]; [lra|]. destruct (Rlt_dec 1 _); [done|lra].
        * exists hA. split; [apply elem_of_list_In; exact (ptr_in g0 ku hA HhA)|].
          refine (in1 dims Hd s G r0 q0 HD0 GO g0 Hg0 (W (xId u.2)) i Hi ku _ hA Hku HhA WA1 (fun X => WA2 X i Hi B) _); lra.
    - (* the record was sent along this axis together with the atom x *)
      assert (EX : exists x0, x0 ∈ held (map gpX sys) /\ x0.1 = x.1 /\ xId x0.2 = xId x.2 /\ (j = 0%nat -> yy dims i x0.1 (xPos x0.2) < 0) /\ (j = 1%nat -> 1 < yy dims i x0.1 (xPos x0.2))).
      { assert (ES : map gpX (map (gstart s) sys) = map (xstart s) (map gpX sys)) by (by rewrite !map_map). rewrite ES, (T_start s (map gpX sys)) in Hx. apply elem_of_map in Hx as (x0 & -> & Hx0). exists x0. split; [done|].
        destruct (held_elem dims _ (gy_grid _ _ _ HG) x0 Hx0) as (p & Hp' & _ & _ & _ & Hdom). unfold st in *. rewrite Hp' in *. cbn [fst snd] in *. split; [done|]. split; [done|].
        destruct (flags_yy dims Hd x0.1 (xpDom p) s (xPos x0.2) i Hdom Hi) as (X0 & X1 & _). unfold ex in Hex. cbn in Hex. split; intros ->; [by apply X0|by apply X1]. }
      destruct EX as (x0 & Hx0 & Ex1 & Exi & Ex0 & Ex01). pose proof (dst_shift dims Hd i j r0 Hi Hj Hr0) as DS. set (zz := shf dims i j (dst dims i j r0)) in DS. fold d in DS. rewrite <- Ecu in DS. rewrite EA in Ix.
      rewrite <- Ex1 in Ecx. destruct (H2 _ Ix) as [Ea|Ea].
      + (* x is u itself *)
        assert (x0 = u0) as -> by (apply (held_unique dims G sys HG); [done|apply Fu|rewrite Exi, Ea; apply Fu]). pose proof (fn_y _ _ _ _ _ _ Fu i Hi) as Y. cbv zeta in Y. pose proof (fn_in _ _ _ _ _ _ Fu i Hi) as Yin. fold d dR in Yin.
        assert (EYk : yy dims i r0 (W (xId u.2)) = yy dims i u0.1 (xPos u0.2) + IZR (vget kkA i * d)).
        { rewrite EWA, yy_translate by done. unfold yy. fold d. rewrite Ecx, minus_IZR. lra. }
        destruct j as [|[|]]; [| |lia]; cbn [step_of] in DS.
        * specialize (Ex0 eq_refl). rewrite decide_True_ite in Y || destruct (Rlt_dec _ 0) as [_|N] in Y; [|lra].
          refine (down_axis d (crd u.1 i) (crd v.1 i) (crd r0 i) tA tB kA kB (vget s i * dR) (vget m i * dR) (vget e i * dR) _ _ _ _ _ _ B W2 Hmw Hed YA YB EYB ETA ETB HAB HL F1 zz (vget kkA i) _ _ EYk ltac:(lra) Y). lia.
        * specialize (Ex01 eq_refl). destruct (Rlt_dec _ 0) as [N|_] in Y; [lra|]. destruct (Rlt_dec 1 _) as [_|N] in Y; [|lra].
          refine (up_axis d (crd u.1 i) (crd v.1 i) (crd r0 i) tA tB kA kB (vget s i * dR) (vget m i * dR) (vget e i * dR) _ _ _ _ _ _ B Hmw Hed YA YB EYB ETA ETB HAB HL F0 zz (vget kkA i) _ _ EYk ltac:(lra) Y). lia.
      + (* x is v *)
        assert (x0 = v0) as -> by (apply (held_unique dims G sys HG); [done|apply Fv|rewrite Exi, Ea; apply Fv]). pose proof (fn_y _ _ _ _ _ _ Fv i Hi) as Y. cbv zeta in Y. destruct (fn_img _ _ _ _ _ _ Fv) as [kf Ekf]. rewrite Ekf, yy_translate in Y by done. unfold yy in Y, Ex0, Ex01. fold d in Y, Ex0, Ex01. rewrite Ecx in Y, Ex0, Ex01.
        assert (Ecv : (crd v.1 i = crd r0 i + step_of j + vget kf i * d)%Z).
        { apply eq_IZR. rewrite !plus_IZR, mult_IZR. rewrite minus_IZR, mult_IZR in Y. destruct j as [|[|]]; [| |lia]; cbn [step_of].
          - specialize (Ex0 eq_refl). destruct (Rlt_dec _ 0) as [_|N] in Y; [|lra]. lra.
          - specialize (Ex01 eq_refl). destruct (Rlt_dec _ 0) as [N|_] in Y; [lra|]. destruct (Rlt_dec 1 _) as [_|N] in Y; [|lra]. lra. }
        exists 0%Z, (vget kf i - zz)%Z. split; [by left|]. lia.
  Qed.
End reach.
