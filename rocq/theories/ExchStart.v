(** Proofs about exchangeAtoms: the whole function. *)
From Verif Require Import Base Containers Vec3 PlanModel DomainModel DomainSpec DomainProofs DomainProps SpeciesModel SpeciesProofs SimProofs DistSpec ExchModel ExchSpec ExchProofs ExchAtoms ExchElem.
From Coq Require Import Reals Lra.
Local Open Scope nat_scope.

Definition setp (s : vec3 R) (D : domain) (a : xatom) : xatom := XA (xId a) (xType a) (xPos a) (plan_atom D s (xPos a)) (xForce a) (xRest a).

Lemma hr_dirs D pl : hr dirs D pl = stays D 0 pl.
Proof.
  unfold stays, hr, dirs. cbn [forallb seq Nat.sub fst snd].
  destruct (xflag D 0), (xflag D 1), (xflag D 2); cbn [andb negb orb];
    repeat match goal with |- context [exchange pl ?k ?l] => destruct (exchange pl k l) end; reflexivity.
Qed.
Lemma fold_sends (P : nat -> plan) (st : nat -> bool) l i j : i < 3 -> j < 2 -> forall t,
  fold_left (fun t h => if st h then add_sends t 0 (P h) h else t) l t i j = t i j ++ List.filter (fun h => st h && ghost (P h) i j) l.
Proof.
  intros Hi Hj. induction l as [|h l IH]; intros t; cbn [fold_left List.filter]; [by rewrite app_nil_r|]. rewrite IH. destruct (st h); cbn [andb]; [|done].
  unfold add_sends. rewrite decide_True by lia. destruct (ghost (P h) i j); [|done]. by rewrite <- app_assoc.
Qed.
Lemma xstart_L s p : L (xstart s p) = map (fun a => nf (setp s (xpDom p) a)) (locals p).
Proof. unfold L, locals, xstart. xc. rewrite map_map. apply map_ext_elem. intros h Hh. by rewrite decide_True by done. Qed.
Lemma xstart_SI s p : SI dirs (xstart s p).
Proof.
  intros i j Hi Hj. unfold xstart. xc. rewrite (fold_sends (fun h => xPlan (if decide (h ∈ xpLocals p) then setp s (xpDom p) (xpMem p h) else xpMem p h)) (fun h => stays (xpDom p) 0 (xPlan (if decide (h ∈ xpLocals p) then setp s (xpDom p) (xpMem p h) else xpMem p h)))) by done.
  cbn [app]. apply List.filter_ext. intros h. rewrite hr_dirs. done.
Qed.

Section start.
  Context (dims : vec3 Z) (s : vec3 R) (sys : list xproc) (HG : grid_system dims sys).
  Let Hd := gs_grid _ _ HG.
  Definition st (u : nat * xatom) : nat * xatom := match sys !! u.1 with Some p => (u.1, nf (setp s (xpDom p) u.2)) | None => u end.
  Lemma held_elem u : u ∈ held sys -> exists p, sys !! u.1 = Some p /\ p ∈ sys /\ u.2 ∈ locals p /\ u.1 < n_proc dims /\ domain_of dims (Z.of_nat u.1) (xpDom p).
  Proof.
    unfold held. intros H. apply elem_of_flat_map in H as (r & Hr & H). destruct (sys !! r) as [p|] eqn:E; [|by apply elem_of_nil in H].
    apply elem_of_map in H as (a & -> & Ha). exists p. cbn. split; [done|]. split; [by eapply elem_of_list_lookup_2|]. split; [done|]. pose proof (gs_domains _ _ HG) as HD.
    split; [|by apply (dom_at dims sys)]. destruct HD as [HD _]. rewrite map_length in HD. rewrite <- HD. by eapply lookup_lt_Some.
  Qed.
  Lemma T_start : T (map (xstart s) sys) = map st (held sys).
  Proof.
    unfold T, TF, held. rewrite map_length, map_flat_map. apply flat_map_ext_in. intros r _. unfold Lr. rewrite list_lookup_fmap.
    destruct (sys !! r) as [p|] eqn:E; [change (map (pair r) (L (xstart s p)) = map st (map (pair r) (locals p)))|done]. rewrite xstart_L, !map_map. apply map_ext_elem. intros a _. unfold st. cbn [fst snd]. by rewrite E.
  Qed.
  Lemma start_dom : map xpDom (map (xstart s) sys) = map xpDom sys.
  Proof. rewrite map_map. done. Qed.
  Lemma st_excl u : u ∈ held sys -> excl (st u).2.
  Proof.
    intros Hu i Hi E0 E1. destruct (held_elem u Hu) as (p & Hp & _ & _ & _ & HD). unfold st in E0, E1. rewrite Hp in E0, E1. unfold ex in E0, E1. cbn in E0, E1.
    destruct (flags_yy dims Hd _ _ s (xPos u.2) i HD Hi) as (F0 & F1 & _). apply F0 in E0. apply F1 in E1. lra.
  Qed.
  Lemma start_inv : inv dims dirs (map (xstart s) sys).
  Proof.
    split.
    - rewrite start_dom. apply HG.
    - pose proof (gs_pointers _ _ HG) as HP. rewrite Forall_forall in *. intros p Hp. apply elem_of_map in Hp as (q & -> & Hq). apply (HP q Hq).
    - rewrite Forall_forall. intros p Hp. apply elem_of_map in Hp as (q & -> & Hq). apply xstart_SI.
    - rewrite Forall_forall. intros p Hp. apply elem_of_map in Hp as (q & -> & Hq). done.
    - rewrite T_start. rewrite Forall_forall. intros u Hu. apply elem_of_map in Hu as (v & -> & Hv). by apply st_excl.
  Qed.
  Lemma exchange_atoms_raw sys' : exchangeAtoms s sys = Ok sys' ->
    inv dims [] sys' /\ T sys' ≡ₚ map (fun u => M dims (st u)) (held sys) /\
    map xpDom sys' = map xpDom sys /\ map xpCap sys' = map xpCap sys /\ map xpGCap sys' = map xpGCap sys.
  Proof.
    intros H. unfold exchangeAtoms in H. destruct (rounds_inv dims Hd dirs [] (map (xstart s) sys) sys' eq_refl start_inv H) as (I & HT & D & C & G).
    split; [done|]. split; [|by rewrite D, C, G, !map_map]. rewrite HT, T_start, map_map. done.
  Qed.
  Lemma T_held k : T k = map (fun u => (u.1, nf u.2)) (held k).
  Proof.
    unfold T, TF, held. rewrite map_flat_map. apply flat_map_ext_in. intros r _. unfold Lr. destruct (k !! r) as [p|]; [|done]. unfold L, locals. rewrite !map_map. done.
  Qed.
  Lemma Forall2_map_eq {A B C} (f : A -> C) (g : B -> C) l k : map f l = map g k -> Forall2 (fun x y => f x = g y) l k.
  Proof. revert k. induction l as [|x l IH]; intros [|y k] H; try discriminate; [constructor|]. cbn in H. injection H as H1 H2. constructor; [done|]. by apply IH. Qed.

  (** Result of the whole function, atom by atom. *)
  Lemma exchange_atoms_pairs sys' : exchangeAtoms s sys = Ok sys' ->
    exists l, l ≡ₚ held sys' /\ Forall2 (fun u v => M dims (st u) = (v.1, nf v.2)) (held sys) l.
  Proof.
    intros H. destruct (exchange_atoms_raw sys' H) as (_ & HT & _). rewrite T_held in HT. symmetry in HT.
    apply Permutation_map_inv in HT as (l & E & HP). exists l. split; [by symmetry|]. by apply Forall2_map_eq.
  Qed.
  Lemma M_st u D : u ∈ held sys -> forall p, sys !! u.1 = Some p -> D = xpDom p ->
    (M dims (st u)).1 < n_proc dims /\ xPlan (M dims (st u)).2 = plan_atom D s (xPos u.2) /\ same_atom u.2 (M dims (st u)).2 /\
    forall i, i < 3 -> let y := yy dims i u.1 (xPos u.2) in yy dims i (M dims (st u)).1 (xPos (M dims (st u)).2) = (if Rlt_dec y 0 then y + 1 else if Rlt_dec 1 y then y - 1 else y)%R.
  Proof.
    intros Hu p Hp ->. destruct (held_elem u Hu) as (p' & Hp' & _ & _ & Hr & HD). assert (p' = p) by congruence. subst p'.
    destruct (M_spec dims Hd s (st u) (xpDom p)) as (M1 & M2 & M3 & M4).
    - unfold st. by rewrite Hp.
    - unfold st. rewrite Hp. done.
    - unfold st. rewrite Hp. done.
    - assert (E : (st u).1 = u.1 /\ xPos (st u).2 = xPos u.2 /\ xPlan (st u).2 = plan_atom (xpDom p) s (xPos u.2)
                  /\ xId (st u).2 = xId u.2 /\ xType (st u).2 = xType u.2 /\ xRest (st u).2 = xRest u.2) by (unfold st; by rewrite Hp).
      destruct E as (E1 & E2 & E3 & E4 & E5 & E6). unfold same_atom in *. rewrite E3 in M2. rewrite E4, E5, E6, E2 in M3. rewrite E1, E2 in M4. done.
  Qed.
End start.

(** ** When it completes *)
Lemma TF_split {A} (f : nat -> list A) n r : r < n -> exists X Y, TF f n = X ++ map (pair r) (f r) ++ Y.
Proof.
  intros Hr. unfold TF. replace n with (r + (1 + (n - r - 1))) by lia. rewrite seq_app, !flat_map_app. cbn [Nat.add seq flat_map]. eauto.
Qed.
Lemma mapO_total {A B} (f : A -> outcome B) l : (forall r x, l !! r = Some x -> exists y, f x = Ok y) -> exists k, mapO f l = Ok k.
Proof.
  induction l as [|x l IH]; intros H; cbn; [eauto|]. destruct (H 0 x eq_refl) as [y ->]. destruct IH as [k ->]; [|cbn; eauto]. intros r z Hr. apply (H (S r) z Hr).
Qed.
Definition uid (u : nat * xatom) : Z := xId u.2.

Section ok.
  Context (dims : vec3 Z) (Hd : grid_ok dims).
  Notation n := (n_proc dims).
  Lemma round_ok i j ds sys : after i j ds -> inv dims ((i, j) :: ds) sys -> NoDup (map uid (T sys)) -> Forall (fun p => length (T sys) <= xpCap p) sys ->
    exists sys', xround i j sys = Ok sys'.
  Proof.
    intros Ha HI Hn Hc. destruct (after_cases _ _ _ Ha) as (Hi & Hj & _ & _). pose proof (inv_len _ _ _ HI) as Hlen. unfold xround. apply mapO_total. intros r p1 Hp1.
    rewrite list_lookup_fmap in Hp1. rewrite list_lookup_fmap in Hp1. destruct (sys !! r) as [p|] eqn:Hp; [|done]. cbn in Hp1. injection Hp1 as <-.
    pose proof (dom_at _ _ _ _ (iv_dom _ _ _ HI) Hp) as HD. destruct (dom_tables _ Hd _ _ HD) as (_ & _ & Ht). destruct (Ht i j Hi Hj) as (Hs & _ & _).
    pose proof (flag_iff _ Hd _ _ i HD Hi) as Hfl. assert (Hr : r < n) by (rewrite <- Hlen; by eapply lookup_lt_Some).
    pose proof (proj1 (Forall_lookup _ _) (iv_wf _ _ _ HI) _ _ Hp) as Hw. pose proof (proj1 (Forall_lookup _ _) (iv_send _ _ _ HI) _ _ Hp) as HS. cbn beta in HS.
    destruct (xflag (xpDom p) i) eqn:Hf.
    - destruct (pack_flag i j ds p Hf Hw HS) as (W1 & S1 & L1 & _ & D1 & C1 & C2 & G1). rewrite D1, Hf. unfold from_source. rewrite Hs.
      destruct (lookup_lt_is_Some_2 sys (src dims i j r)) as [q Hq]; [rewrite Hlen; by apply src_lt|].
      pose proof (dom_at _ _ _ _ (iv_dom _ _ _ HI) Hq) as HDq. pose proof (flag_iff _ Hd _ _ i HDq Hi) as Hfq.
      assert (Hfq' : xflag (xpDom q) i = true) by congruence.
      destruct (pack_flag i j ds q Hfq') as (_ & _ & _ & M1 & _); [by apply (proj1 (Forall_lookup _ _) (iv_wf _ _ _ HI) _ _ Hq)|by apply (proj1 (Forall_lookup _ _) (iv_send _ _ _ HI) _ _ Hq)|].
      rewrite (aget_Ok' _ _ (xpack i j q).2) by (by rewrite !list_lookup_fmap, Hq). cbn [obind]. unfold xunpack. rewrite decide_True; [eauto|].
      set (f' := fun r => if bool_decide (1 < vget dims i)%Z then List.filter (fun a => negb (ex i j a)) (Lr sys r) ++ map (sh_a i (shf dims i j r)) (List.filter (ex i j) (Lr sys (src dims i j r)))
           else map (fun a => if ex i j a then sh_a i (shf dims i j r) a else a) (Lr sys r)).
      pose proof (round_T dims Hd i j (Lr sys) f' Hi ltac:(done)) as HT. unfold T in Hn, Hc. rewrite Hlen in Hn, Hc.
      assert (Hf' : map xId (f' r) = map (fun h => xId (xpMem (xpack i j p).1 h)) (xpLocals (xpack i j p).1) ++ map xId (xpack i j q).2).
      { unfold f'. rewrite <- Hfl. unfold Lr. rewrite Hp, Hq, map_app, map_map, <- L1, <- M1. unfold L. rewrite !map_map. done. }
      destruct (TF_split f' n r Hr) as (X & Y & E). split.
      + pose proof (proj1 (Forall_lookup _ _) Hc _ _ Hp) as Hcp. cbn beta in Hcp. apply Permutation_length in HT. rewrite E in HT. rewrite map_length, !app_length, map_length in HT.
        apply (f_equal length) in Hf'. rewrite app_length, !map_length in Hf'. lia.
      + rewrite <- Hf'. assert (HN : NoDup (map uid (TF f' n))).
        { rewrite HT, map_map. replace (map (fun x => uid (mv dims i j x)) (TF (Lr sys) n)) with (map uid (TF (Lr sys) n)); [done|].
          apply map_ext_elem. intros u _. unfold mv, uid. by destruct (ex i j u.2). }
        rewrite E, !map_app, map_map in HN. apply NoDup_app in HN as (_ & _ & HN). by apply NoDup_app in HN as (HN & _ & _).
    - destruct (pack_noflag i j ds p Hf Hw HS) as (W1 & S1 & L1 & D1 & C1 & C2 & G1). rewrite D1, Hf. eauto.
  Qed.

  Lemma uid_mv i j l : map uid (map (mv dims i j) l) = map uid l.
  Proof. rewrite map_map. apply map_ext_elem. intros u _. unfold mv, uid. by destruct (ex i j u.2). Qed.
  Lemma rounds_ok ds : forall pre sys, dirs = pre ++ ds -> inv dims ds sys -> NoDup (map uid (T sys)) -> Forall (fun c => length (T sys) <= c) (map xpCap sys) ->
    exists sys', foldM (fun sys ij => xround ij.1 ij.2 sys) sys ds = Ok sys'.
  Proof.
    induction ds as [|[i j] ds IH]; intros pre sys Hpre HI Hn Hc; cbn [foldM fst snd]; [eauto|].
    destruct (round_ok i j ds sys) as [s1 E]; [by exists pre|done|done| |].
    { rewrite Forall_forall. intros p Hp. apply (proj1 (Forall_forall _ _) Hc). apply elem_of_map. eauto. }
    rewrite E. cbn [obind]. destruct (round_inv dims Hd i j ds sys s1) as (I1 & T1 & _ & C1 & _); [by exists pre|done|done|].
    apply (IH (pre ++ [(i, j)])); [by rewrite <- app_assoc|done| |].
    - rewrite (Permutation_map uid T1), uid_mv. done.
    - rewrite C1, (Permutation_length T1), map_length. done.
  Qed.
End ok.
