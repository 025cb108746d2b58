(** The arrays sendArray_ and recvArray_ after exchangeGhosts. *)
From Verif Require Import Base Containers Vec3 PlanModel DomainModel DomainSpec DomainProofs DomainProps SpeciesModel SpeciesProofs SimProofs DistSpec ExchModel ExchSpec ExchProofs ExchAtoms ExchElem ExchStart ExchGhost ExchCopies ExchFinal.
From Coq Require Import Reals Lra.
Local Open Scope nat_scope.

Definition copy_of (i : nat) (t : Z) (a b : xatom) : Prop := xId b = xId a /\ xType b = xType a /\ xPos b = shift_pos (xPos a) i t.

Section links.
  Context (dims : vec3 Z) (Hd : grid_ok dims).
  Notation n := (n_proc dims).

  (** After the rounds [done], with the rounds [rem] to come. *)
  Record links (done rem : list (nat * nat)) (sys : list xproc) : Prop := {
    lk_ginv : ginv dims sys;
    lk_ghosts : forall q p, sys !! q = Some p -> xpGhosts p = flat_map (fun ij => xpRecv p ij.1 ij.2) done;
    lk_rem : forall q p ij, sys !! q = Some p -> ij ∈ rem -> xpRecv p ij.1 ij.2 = [];
    lk_match : forall i j q p p0, (i, j) ∈ done -> sys !! q = Some p -> sys !! src dims i j q = Some p0 ->
      Forall2 (fun h g => copy_of i (shf dims i j q) (xpMem p0 h) (xpMem p g)) (xpSend p0 i j) (xpRecv p i j);
    lk_send : forall q p a b h, a < 3 -> b < 2 -> sys !! q = Some p -> h ∈ xpSend p a b -> h ∈ xpLocals p \/ exists i j, (i, j) ∈ done /\ i < a /\ h ∈ xpRecv p i j }.

  Lemma links_step i j done rem sys sys' : i < 3 -> j < 2 -> (forall a b, (a, b) ∈ done -> a <= i /\ b < 2 /\ (a, b) <> (i, j)) -> (i, j) ∉ rem ->
    links done ((i, j) :: rem) sys -> xground i j sys = Ok sys' -> links (done ++ [(i, j)]) rem sys'.
  Proof.
    intros Hi Hj Hdone Hrem HL H. pose proof (lk_ginv _ _ _ HL) as HI. destruct (ground_at dims Hd i j sys sys' Hi Hj HI H) as [Hl HP].
    destruct (ground_inv dims Hd i j sys sys' Hi Hj HI H) as (HI' & _).
    assert (HQ : forall r p', sys' !! r = Some p' -> exists p, sys !! r = Some p /\ gstep dims i j sys r p p').
    { intros r p' Hr. destruct (lookup_lt_is_Some_2 sys r) as [p Hp]; [rewrite <- Hl; by eapply lookup_lt_Some|]. exists p. split; [done|].
      destruct (HP r p Hp) as (p2 & Hp2 & HS). rewrite Hr in Hp2. by injection Hp2 as <-. }
    assert (HR : forall r p p' a b, sys !! r = Some p -> gstep dims i j sys r p p' -> (a, b) <> (i, j) -> xpRecv p' a b = xpRecv p a b).
    { intros r p p' a b Hp (q & _ & _ & _ & _ & _ & _ & _ & _ & _ & _ & HR & _) Hn. rewrite HR. destruct (decide (a = i /\ b = j)) as [[-> ->]|_]; done. }
    assert (HB : forall r p, sys !! r = Some p -> forall h, h ∈ xpLocals p ++ xpGhosts p -> h < xpNext p).
    { intros r p Hp. apply Forall_forall. eapply Forall_lookup_1 in Hp; [|exact (gi_live _ _ HI)]. apply Hp. }
    assert (HM : forall r p p' h, sys !! r = Some p -> gstep dims i j sys r p p' -> h ∈ xpLocals p ++ xpGhosts p -> xpMem p' h = xpMem p h).
    { intros r p p' h Hp (q & _ & _ & _ & _ & _ & _ & _ & _ & _ & _ & _ & HM & _) Hh. apply HM. by eapply HB. }
    assert (HSe : forall r p a b h, sys !! r = Some p -> a < 3 -> b < 2 -> h ∈ xpSend p a b -> h ∈ xpLocals p ++ xpGhosts p).
    { intros r p a b h Hp Ha Hb Hh. eapply Forall_lookup_1 in Hp; [|exact (gi_live _ _ HI)]. by apply (lv_send _ Hp a b). }
    split; [done| | | |].
    - intros r p' Hr. destruct (HQ r p' Hr) as (p & Hp & HS). rewrite flat_map_app. cbn [flat_map fst snd]. rewrite app_nil_r.
      pose proof HS as (q & Hq & _ & _ & _ & _ & _ & _ & _ & Hg & _ & HRe & _). rewrite Hg, HRe, decide_True by done. pose proof (lk_rem _ _ _ HL r p (i, j) Hp ltac:(by left)) as ER. cbn [fst snd] in ER. rewrite ER.
      cbn [app]. f_equal. rewrite (lk_ghosts _ _ _ HL r p Hp). apply flat_map_ext_in. intros [a b] Hab. symmetry. cbn [fst snd]. apply (HR r p p' a b Hp HS). destruct (Hdone a b Hab) as (_ & _ & Hab'). exact Hab'.
    - intros r p' [a b] Hr Hab. destruct (HQ r p' Hr) as (p & Hp & HS). cbn [fst snd]. rewrite (HR r p p' a b Hp HS) by congruence. apply (lk_rem _ _ _ HL r p (a, b) Hp). by right.
    - intros a b r p' p0' Hab Hr Hr0. destruct (HQ r p' Hr) as (p & Hp & HS). destruct (HQ _ p0' Hr0) as (p0 & Hp0 & HS0).
      apply elem_of_app in Hab as [Hab|Hab].
      + destruct (Hdone a b Hab) as (A1 & A2 & A3). rewrite (HR r p p' a b Hp HS) by done.
        pose proof HS0 as (q0 & _ & _ & _ & _ & _ & _ & _ & _ & _ & HSd & _). rewrite HSd by lia. rewrite decide_False by lia. rewrite app_nil_r.
        pose proof (lk_match _ _ _ HL a b r p p0 Hab Hp Hp0) as HF. apply Forall2_same_length_lookup. split; [by apply Forall2_length in HF|]. intros x h g Hh Hg.
        pose proof (Forall2_lookup_lr _ _ _ _ _ _ HF Hh Hg) as HC. cbn beta in HC.
        rewrite (HM _ p0 p0' h Hp0 HS0), (HM _ p p' g Hp HS); [done| |].
        * apply elem_of_app. right. rewrite (lk_ghosts _ _ _ HL r p Hp). apply elem_of_flat_map. exists (a, b). split; [done|]. by eapply elem_of_list_lookup_2.
        * eapply (HSe _ p0 a b); eauto; [lia|]. by eapply elem_of_list_lookup_2.
      + apply elem_of_list_singleton in Hab as [= -> ->].
        pose proof HS0 as (q0 & _ & _ & _ & _ & _ & _ & _ & _ & _ & HSd & _). rewrite HSd by lia. rewrite decide_False by lia. rewrite app_nil_r.
        pose proof HS as (q & Hq & _ & _ & _ & _ & _ & _ & _ & _ & _ & HRe & _ & HN). assert (q = p0) by congruence. subst q.
        rewrite HRe, decide_True by done. pose proof (lk_rem _ _ _ HL r p (i, j) Hp ltac:(by left)) as ER. cbn [fst snd] in ER. rewrite ER. cbn [app].
        apply Forall2_same_length_lookup. split; [by rewrite seq_length|]. intros x h g Hh Hg.
        apply (f_equal (fun l => l !! x)) in HN. unfold SV in HN. rewrite map_map in HN. rewrite !list_lookup_fmap, Hh, Hg in HN. cbn in HN. injection HN as N1 N2 N3 N4.
        rewrite (HM _ p0 p0' h Hp0 HS0); [done|]. eapply (HSe _ p0 i j); eauto. by eapply elem_of_list_lookup_2.
    - intros r p' a b h Ha Hb Hr Hh. destruct (HQ r p' Hr) as (p & Hp & HS).
      pose proof HS as (q & Hq & _ & _ & _ & _ & _ & _ & Hlo & _ & HSd & HRe & _). rewrite HSd in Hh by done. apply elem_of_app in Hh as [Hh|Hh].
      + destruct (lk_send _ _ _ HL r p a b h Ha Hb Hp Hh) as [Hh'|(i' & j' & Hij & Hlt & Hh')]; [left; by rewrite Hlo|]. right. exists i', j'.
        split; [apply elem_of_app; by left|]. split; [done|]. rewrite (HR r p p' i' j' Hp HS); [done|]. by apply Hdone.
      + destruct (decide (i < a)) as [Hlt|_]; [|by apply elem_of_nil in Hh]. apply elem_of_filter_b in Hh as [Hh _]. right. exists i, j.
        split; [apply elem_of_app; right; by left|]. split; [done|]. rewrite HRe, decide_True by done. apply elem_of_app. by right.
  Qed.

  Lemma links_all s0 s2 : links [] dirs s0 -> foldM (fun sys ij => xground ij.1 ij.2 sys) s0 dirs = Ok s2 -> links dirs [] s2.
  Proof.
    intros HL H. unfold dirs in *. 
    assert (step : forall done i j rem sys, links done ((i, j) :: rem) sys -> i < 3 -> j < 2 -> (forall a b, (a, b) ∈ done -> a <= i /\ b < 2 /\ (a, b) <> (i, j)) -> (i, j) ∉ rem ->
      forall s2, (let? x := xground i j sys in foldM (fun sys ij => xground ij.1 ij.2 sys) x rem) = Ok s2 ->
      exists s1, links (done ++ [(i, j)]) rem s1 /\ foldM (fun sys ij => xground ij.1 ij.2 sys) s1 rem = Ok s2).
    { intros done i j rem sys HL' Hi Hj H1 H2 s2' HH. destruct (xground i j sys) as [s1| |] eqn:E; try discriminate. exists s1. split; [|exact HH]. by eapply links_step. }
    assert (notin : forall rem i j, Forall (fun ab : nat * nat => (ab.1 <> i \/ ab.2 <> j)) rem -> (i, j) ∉ rem).
    { intros rem i j HF Hab. destruct (proj1 (Forall_forall _ _) HF _ Hab) as [X|X]; by apply X. }
    assert (fin : forall done i j, Forall (fun ab : nat * nat => (ab.1 <= i /\ ab.2 < 2 /\ (ab.1 <> i \/ ab.2 <> j))) done -> forall a b, (a, b) ∈ done -> a <= i /\ b < 2 /\ (a, b) <> (i, j)).
    { intros done i j HF a b Hab. destruct (proj1 (Forall_forall _ _) HF _ Hab) as (X1 & X2 & X3). cbn in *. split; [done|]. split; [done|]. intros [= -> ->]. destruct X3; done. }
    change (foldM ?f ?s ((?i, ?j) :: ?l)) with (let? x := xground i j s in foldM f x l) in H.
    destruct (step _ _ _ _ _ HL ltac:(lia) ltac:(lia) ltac:(apply fin; repeat constructor; cbn; lia) ltac:(apply notin; repeat constructor; cbn; lia) _ H) as (s3 & L3 & H3). clear H.
    change (foldM ?f ?s ((?i, ?j) :: ?l)) with (let? x := xground i j s in foldM f x l) in H3.
    destruct (step _ _ _ _ _ L3 ltac:(lia) ltac:(lia) ltac:(apply fin; repeat constructor; cbn; lia) ltac:(apply notin; repeat constructor; cbn; lia) _ H3) as (s4 & L4 & H4). clear H3.
    change (foldM ?f ?s ((?i, ?j) :: ?l)) with (let? x := xground i j s in foldM f x l) in H4.
    destruct (step _ _ _ _ _ L4 ltac:(lia) ltac:(lia) ltac:(apply fin; repeat constructor; cbn; lia) ltac:(apply notin; repeat constructor; cbn; lia) _ H4) as (s5 & L5 & H5). clear H4.
    change (foldM ?f ?s ((?i, ?j) :: ?l)) with (let? x := xground i j s in foldM f x l) in H5.
    destruct (step _ _ _ _ _ L5 ltac:(lia) ltac:(lia) ltac:(apply fin; repeat constructor; cbn; lia) ltac:(apply notin; repeat constructor; cbn; lia) _ H5) as (s6 & L6 & H6). clear H5.
    change (foldM ?f ?s ((?i, ?j) :: ?l)) with (let? x := xground i j s in foldM f x l) in H6.
    destruct (step _ _ _ _ _ L6 ltac:(lia) ltac:(lia) ltac:(apply fin; repeat constructor; cbn; lia) ltac:(apply notin; repeat constructor; cbn; lia) _ H6) as (s7 & L7 & H7). clear H6.
    change (foldM ?f ?s ((?i, ?j) :: ?l)) with (let? x := xground i j s in foldM f x l) in H7.
    destruct (step _ _ _ _ _ L7 ltac:(lia) ltac:(lia) ltac:(apply fin; repeat constructor; cbn; lia) ltac:(apply notin; repeat constructor; cbn; lia) _ H7) as (s8 & L8 & H8). clear H7.
    cbn [foldM] in H8. injection H8 as <-. exact L8.
  Qed.

  Lemma links_ready sys sys' : ready dims sys -> exchangeGhosts sys = Ok sys' -> links dirs [] sys'.
  Proof.
    intros HI H. unfold exchangeGhosts in H. destruct (forallb _ _); [|discriminate]. change (fun p => XP _ _ _ _ _ _ _ _ _) with cleared in H.
    destruct (ready_ginv dims sys HI) as (G1 & _ & _). eapply links_all; [|exact H].
    assert (HC : forall q p', map cleared sys !! q = Some p' -> exists p, p ∈ sys /\ p' = cleared p).
    { intros q p' Hp. rewrite list_lookup_fmap in Hp. destruct (sys !! q) as [p|] eqn:E; [|done]. injection Hp as <-. exists p. split; [by eapply elem_of_list_lookup_2|done]. }
    split; [done| | | |].
    - intros q p' Hp. destruct (HC q p' Hp) as (p & Hp' & ->). cbn. by apply (proj1 (Forall_forall _ _) (rd_ghost _ _ HI)).
    - intros q p' ij Hp _. by destruct (HC q p' Hp) as (p & Hp' & ->).
    - intros i j q p p0 Hij. by apply elem_of_nil in Hij.
    - intros q p' a b h Ha Hb Hp Hh. left. destruct (HC q p' Hp) as (p & Hp' & ->). pose proof (proj1 (Forall_forall _ _) (gi_live _ _ G1) (cleared p) ltac:(apply elem_of_map; eauto)) as LV.
      pose proof (lv_send _ LV a b h Ha Hb Hh) as Hx. unfold cleared in Hx at 2. cbn in Hx. rewrite (proj1 (Forall_forall _ _) (rd_ghost _ _ HI) p Hp') in Hx. by rewrite app_nil_r in Hx.
  Qed.
End links.
