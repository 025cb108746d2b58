(** Proofs about Exchanger::update and reverseUpdate. *)
From stdpp Require Import gmap.
From Verif Require Import Base Containers Vec3 PlanModel DomainModel DomainSpec DomainProofs DomainProps SpeciesModel SpeciesProofs SimProofs DistSpec EnergySpec EnergyProofs ExchModel ExchSpec ExchUpdSpec ExchProofs ExchAtoms ExchElem ExchStart ExchGhost ExchCopies ExchFinal ExchLinks.
From Coq Require Import Sorting.Sorted Reals Lra.
Local Open Scope nat_scope.

(** Assignments and additions. *)
Lemma set_pos_out sh i t l : forall m h, h ∉ map fst l -> fold_left (set_pos sh i t) l m h = m h.
Proof.
  induction l as [|[k x] l IH]; intros m h Hh; cbn [fold_left]; [done|]. cbn [map fst] in Hh. apply not_elem_of_cons in Hh as [H1 H2]. rewrite IH by done. unfold set_pos. cbn [fst]. by rewrite decide_False by done.
Qed.
Lemma set_pos_in sh i t l : forall m h x, NoDup (map fst l) -> (h, x) ∈ l -> fold_left (set_pos sh i t) l m h = put_pos (m h) (sh x i t).
Proof.
  induction l as [|[k y] l IH]; intros m h x Hn Hx; [by apply elem_of_nil in Hx|]. cbn [fold_left]. cbn [map fst] in Hn. apply NoDup_cons in Hn as [Hk Hn]. apply elem_of_cons in Hx as [[= -> ->]|Hx].
  - rewrite set_pos_out by done. unfold set_pos. cbn [fst snd]. by rewrite decide_True by done.
  - rewrite (IH _ _ x) by done. assert (h <> k). { intros ->. apply Hk. apply elem_of_map. by exists (k, x). } unfold set_pos. cbn [fst]. by rewrite decide_False by done.
Qed.
Lemma add_force_all l : forall m h, exists f, fold_left add_force l m h = put_force (m h) f /\
  forall c, c < 3 -> vget f c = (vget (xForce (m h)) c + sum_over l (fun kf => if decide (kf.1 = h) then vget kf.2 c else 0))%R.
Proof.
  induction l as [|[k g] l IH]; intros m h; cbn [fold_left].
  - exists (xForce (m h)). split; [by destruct (m h)|]. intros c Hc. rewrite sum_nil. lra.
  - destruct (IH (add_force m (k, g)) h) as (f & E & Hf). exists f. split.
    + rewrite E. unfold add_force, put_force. cbn [fst snd]. by destruct (decide (h = k)).
    + intros c Hc. rewrite Hf by done. rewrite sum_cons. cbn [fst snd]. unfold add_force at 1. cbn [fst snd]. destruct (decide (h = k)) as [->|Hn].
      * rewrite decide_True by done. cbn [xForce]. unfold vplus. destruct c as [|[|[|]]]; [| | |lia]; cbn [vget vx vy vz]; lra.
      * rewrite decide_False by done. lra.
Qed.

Section upd.
  Context (dims : vec3 Z) (Hd : grid_ok dims) (S : list xproc) (HL : links dims dirs [] S).
  Notation n := (n_proc dims).
  Definition recv (i j r : nat) : list nat := atr (fun p => xpRecv p i j) S r.
  Definition send (i j r : nat) : list nat := atr (fun p => xpSend p i j) S r.

  (** Where the address gets its position from in a round, and the shift. *)
  Definition step (ij : nat * nat) (a : nat * nat) : (nat * nat) * Z :=
    match list_find (eq a.2) (recv ij.1 ij.2 a.1) with
    | Some (x, _) => match send ij.1 ij.2 (src dims ij.1 ij.2 a.1) !! x with Some h => ((src dims ij.1 ij.2 a.1, h), shf dims ij.1 ij.2 a.1) | None => (a, 0%Z) end
    | None => (a, 0%Z) end.
  Definition addk (k : vec3 Z) (i : nat) (t : Z) : vec3 Z := vset k i (vget k i + t)%Z.
  Fixpoint ownr (rds : list (nat * nat)) (a : nat * nat) : (nat * nat) * vec3 Z :=
    match rds with [] => (a, (V3 0 0 0)%Z) | ij :: rds => let b := step ij a in let o := ownr rds b.1 in (o.1, addk o.2 ij.1 b.2) end.
  Definition own : owners := ownr (reverse dirs).

  Lemma S_len : length S = n.
  Proof. exact (ginv_len _ _ (lk_ginv _ _ _ _ HL)). Qed.
  Lemma dirs_lt i j : (i, j) ∈ dirs -> i < 3 /\ j < 2.
  Proof. unfold dirs. rewrite !elem_of_cons, elem_of_nil. intros H. repeat (destruct H as [[= -> ->]|H]; [lia|]). done. Qed.
  Lemma S_at r : r < n -> exists p, S !! r = Some p.
  Proof. intros H. apply lookup_lt_is_Some_2. by rewrite S_len. Qed.
  Lemma recv_ghost i j r g : (i, j) ∈ dirs -> g ∈ recv i j r -> exists p, S !! r = Some p /\ g ∈ xpGhosts p.
  Proof.
    intros Hij Hg. unfold recv, atr in Hg. destruct (S !! r) as [p|] eqn:E; [|by apply elem_of_nil in Hg]. exists p. split; [done|]. rewrite (lk_ghosts _ _ _ _ HL r p E).
    apply elem_of_flat_map. exists (i, j). done.
  Qed.
  Lemma recv_all r p : S !! r = Some p -> xpGhosts p = flat_map (fun ij => recv ij.1 ij.2 r) dirs.
  Proof. intros E. rewrite (lk_ghosts _ _ _ _ HL r p E). apply flat_map_ext_in. intros [i j] _. unfold recv, atr. by rewrite E. Qed.
  Lemma ghosts_nodup r : NoDup (flat_map (fun ij => recv ij.1 ij.2 r) dirs).
  Proof.
    destruct (S !! r) as [p|] eqn:E.
    - rewrite <- (recv_all r p E). pose proof (Forall_lookup_1 _ _ _ _ (gi_live _ _ (lk_ginv _ _ _ _ HL)) E) as LV. pose proof (lv_nodup _ LV) as HN. by apply NoDup_app in HN as (_ & _ & ?).
    - unfold recv, atr. rewrite E. cbn. constructor.
  Qed.
  Lemma flat_nodup {A B} (f : A -> list B) l : NoDup (flat_map f l) -> (forall x, x ∈ l -> NoDup (f x)) /\
    (forall x y b u v w, l = u ++ x :: v ++ y :: w -> b ∈ f x -> b ∈ f y -> False).
  Proof.
    intros H. split.
    - intros x Hx. apply elem_of_list_split in Hx as (u & v & ->). rewrite flat_map_app in H. cbn [flat_map] in H. apply NoDup_app in H as (_ & _ & H). by apply NoDup_app in H as (? & _).
    - intros x y b u v w -> Hx Hy. rewrite flat_map_app in H. cbn [flat_map] in H. apply NoDup_app in H as (_ & _ & H). apply NoDup_app in H as (_ & H & _). apply (H b Hx).
      rewrite flat_map_app. apply elem_of_app. right. cbn [flat_map]. apply elem_of_app. by left.
  Qed.
  Lemma recv_nodup i j r : (i, j) ∈ dirs -> NoDup (recv i j r).
  Proof. intros H. exact (proj1 (flat_nodup _ _ (ghosts_nodup r)) (i, j) H). Qed.

  Lemma step_out ij a : a.2 ∉ recv ij.1 ij.2 a.1 -> step ij a = (a, 0%Z).
  Proof. intros H. unfold step. destruct (list_find _ _) as [[x y]|] eqn:E; [|done]. apply list_find_Some in E as (E1 & <- & _). exfalso. apply H. by eapply elem_of_list_lookup_2. Qed.
  Lemma step_in i j r x g h : (i, j) ∈ dirs -> recv i j r !! x = Some g -> send i j (src dims i j r) !! x = Some h -> step (i, j) (r, g) = ((src dims i j r, h), shf dims i j r).
  Proof.
    intros Hij Hg Hh. unfold step. cbn [fst snd]. destruct (list_find _ _) as [[y z]|] eqn:E.
    - apply list_find_Some in E as (E1 & <- & _). assert (y = x) by (eapply NoDup_lookup; [by apply recv_nodup|done|done]). subst y. by rewrite Hh.
    - exfalso. apply list_find_None in E. apply elem_of_list_lookup_2 in Hg. by apply (proj1 (Forall_forall _ _) E g Hg).
  Qed.
  Lemma match_at i j r : (i, j) ∈ dirs -> r < n -> length (recv i j r) = length (send i j (src dims i j r)) /\
    forall x g h, recv i j r !! x = Some g -> send i j (src dims i j r) !! x = Some h -> copy_of i (shf dims i j r) (mem_at S (src dims i j r, h)) (mem_at S (r, g)).
  Proof.
    intros Hij Hr. destruct (dirs_lt i j Hij) as [Hi Hj]. destruct (S_at r Hr) as [p Hp]. destruct (S_at (src dims i j r)) as [p0 Hp0]; [by apply src_lt|].
    pose proof (lk_match _ _ _ _ HL i j r p p0 Hij Hp Hp0) as HF. unfold recv, send, atr, mem_at. cbn [fst snd]. rewrite Hp, Hp0. split; [symmetry; by apply Forall2_length in HF|].
    intros x g h Hg Hh. exact (Forall2_lookup_lr _ _ _ _ _ _ HF Hh Hg).
  Qed.

  (** Systems with the same lists. *)
  Lemma same_at s2 r : same_lists S s2 -> r < n -> exists p, s2 !! r = Some p /\ domain_of dims (Z.of_nat r) (xpDom p) /\ (forall i j, xpSend p i j = send i j r) /\ forall i j, xpRecv p i j = recv i j r.
  Proof.
    intros HS Hr. destruct (S_at r Hr) as [p0 Hp0]. destruct (Forall2_lookup_l _ _ _ _ _ HS Hp0) as (p & Hp & E1 & _ & _ & E2 & E3). exists p. split; [done|].
    split. { rewrite E1. exact (dom_at _ _ _ _ (gi_dom _ _ (lk_ginv _ _ _ _ HL)) Hp0). }
    unfold send, recv, atr. rewrite Hp0. done.
  Qed.
  Lemma same_len s2 : same_lists S s2 -> length s2 = n.
  Proof. intros HS. rewrite <- (Forall2_length _ _ _ HS). exact S_len. Qed.

  Lemma same_with f s2 : same_lists S s2 -> same_lists S (imap (fun r p => with_mem p (f r p)) s2).
  Proof.
    intros HS. apply Forall2_same_length_lookup. split; [rewrite imap_length; exact (Forall2_length _ _ _ HS)|]. intros r p p' Hp Hp'. rewrite list_lookup_imap in Hp'.
    destruct (s2 !! r) as [p2|] eqn:E; [|done]. cbn in Hp'. injection Hp' as <-. exact (Forall2_lookup_lr _ _ _ _ _ _ HS Hp E).
  Qed.

  Lemma mapO_imap {A B} (f : A -> outcome B) (g : nat -> A -> B) : forall l (k : nat), (forall r x, l !! r = Some x -> f x = Ok (g (k + r) x)) -> mapO f l = Ok (imap (fun r => g (k + r)) l).
  Proof.
    induction l as [|x l IH]; intros k H; [done|]. cbn [mapO]. rewrite (H 0 x eq_refl). cbn [obind]. rewrite (IH (1 + k)).
    2: { intros r y Hy. rewrite (H (1 + r) y Hy). do 2 f_equal. lia. }
    cbn [obind imap]. f_equal. f_equal. apply imap_ext. intros r y _. cbn [compose]. f_equal. lia.
  Qed.

  (** A round of update. *)
  Lemma uround_spec A sh i j s2 : lattice_shift A sh -> (i, j) ∈ dirs -> same_lists S s2 ->
    exists s3, uround sh i j s2 = Ok s3 /\ same_lists S s3 /\
      forall a, a.1 < n -> mem_at s3 a = put_pos (mem_at s2 a) (sh (xPos (mem_at s2 (step (i, j) a).1)) i (step (i, j) a).2).
  Proof.
    intros HA Hij HS. destruct (dirs_lt i j Hij) as [Hi Hj].
    set (msg := fun r => map (fun h => xPos (mem_at s2 (src dims i j r, h))) (send i j (src dims i j r))).
    set (nm := fun (r : nat) (p : xproc) => fold_left (set_pos sh i (shf dims i j r)) (zip (recv i j r) (msg r)) (xpMem p)).
    exists (imap (fun r p => with_mem p (nm r p)) s2). split; [|split; [by apply same_with|]].
    - unfold uround. apply (mapO_imap _ (fun r p => with_mem p (nm r p)) s2 0). intros r p Hp. cbn [Nat.add].
      assert (Hr : r < n) by (rewrite <- (same_len _ HS); by eapply lookup_lt_Some). destruct (same_at s2 r HS Hr) as (p' & Hp' & HD & HSd & HRv). assert (p' = p) by congruence. subst p'.
      destruct (dom_tables _ Hd _ _ HD) as (_ & _ & Ht). destruct (Ht i j Hi Hj) as (Hs & _ & Hsh). pose proof (flag_iff _ Hd _ _ i HD Hi) as Hfl.
      assert (HM : (if xflag (xpDom p) i then aget (map (fun p => map (fun h => xPos (xpMem p h)) (xpSend p i j)) s2) (Z.to_nat (dSource (xpDom p) i j)) else Ok (map (fun h => xPos (xpMem p h)) (xpSend p i j))) = Ok (msg r)).
      { destruct (xflag (xpDom p) i) eqn:Hf.
        - rewrite Hs. destruct (same_at s2 (src dims i j r) HS) as (q & Hq & _ & HSq & _); [by apply src_lt|]. apply aget_Ok. rewrite list_lookup_fmap, Hq. cbn. f_equal. unfold msg, mem_at. cbn [fst snd]. rewrite Hq, HSq. done.
        - f_equal. symmetry in Hfl. apply bool_decide_eq_false in Hfl. pose proof (vget3_pos _ i Hd). destruct (dst_one _ Hd i j r Hi Hr) as [_ E]; [lia|]. unfold msg, mem_at. cbn [fst snd]. rewrite E, Hp, HSd. done. }
      rewrite HM. cbn [obind]. rewrite decide_True.
      + unfold nm. rewrite HRv, Hsh. done.
      + rewrite HRv. unfold msg. rewrite map_length. symmetry. apply (proj1 (match_at i j r Hij Hr)).
    - intros [r g] Hr. cbn [fst] in Hr. destruct (same_at s2 r HS Hr) as (p & Hp & HD & HSd & HRv). destruct (match_at i j r Hij Hr) as [HLen _].
      unfold mem_at at 1. cbn [fst snd]. rewrite list_lookup_imap, Hp. cbn [fmap option_fmap option_map with_mem xpMem]. unfold nm.
      assert (HMp : mem_at s2 (r, g) = xpMem p g) by (unfold mem_at; cbn [fst snd]; by rewrite Hp).
      destruct (decide (g ∈ recv i j r)) as [Hg|Hg].
      + apply elem_of_list_lookup in Hg as [x Hx]. destruct (lookup_lt_is_Some_2 (send i j (src dims i j r)) x) as [h Hh]; [rewrite <- HLen; by eapply lookup_lt_Some|].
        rewrite (step_in i j r x g h Hij Hx Hh). cbn [fst snd]. rewrite (set_pos_in sh i (shf dims i j r) _ _ g (xPos (mem_at s2 (src dims i j r, h)))); [by rewrite HMp| |].
        * change (map fst) with (fmap (M := list) (@fst nat (vec3 R))). rewrite fst_zip by (unfold msg; rewrite map_length; lia). by apply recv_nodup.
        * apply elem_of_list_lookup. exists x. apply lookup_zip_with_Some. exists g, (xPos (mem_at s2 (src dims i j r, h))). split; [done|]. split; [done|]. unfold msg. rewrite list_lookup_fmap, Hh. done.
      + rewrite (step_out (i, j) (r, g)) by done. cbn [fst snd]. rewrite set_pos_out.
        * rewrite HMp. rewrite HA by done. unfold put_pos, vplus. cbn [vx vy vz]. rewrite !Rmult_0_l, !Rplus_0_r. destruct (xpMem p g) as [? ? [? ? ?] ? ? ?]; done.
        * change (map fst) with (fmap (M := list) (@fst nat (vec3 R))). rewrite fst_zip by (unfold msg; rewrite map_length; lia). done.
  Qed.

  Lemma move_add A sh r k i t : lattice_shift A sh -> i < 3 -> sh (lattice_move A r k) i t = lattice_move A r (addk k i t).
  Proof.
    intros HA Hi. rewrite HA by done. unfold addk, lattice_move, vplus. destruct i as [|[|[|]]]; [| | |lia]; cbn [vget vset vx vy vz]; rewrite plus_IZR; f_equal; lra.
  Qed.
  Lemma step_lt ij a : ij ∈ dirs -> a.1 < n -> (step ij a).1.1 < n.
  Proof.
    intros Hij Ha. destruct ij as [i j]. destruct (dirs_lt i j Hij) as [Hi Hj]. unfold step. cbn [fst snd]. destruct (list_find _ _) as [[x y]|]; [|done]. destruct (_ !! x); [|done]. by apply src_lt.
  Qed.
  Lemma updates A sh s2 : lattice_shift A sh -> same_lists S s2 -> forall done rem, dirs = done ++ rem ->
    exists s3, foldM (fun sys ij => uround sh ij.1 ij.2 sys) s2 done = Ok s3 /\ same_lists S s3 /\
      forall a, a.1 < n -> let o := ownr (reverse done) a in mem_at s3 a = put_pos (mem_at s2 a) (lattice_move A (xPos (mem_at s2 o.1)) o.2).
  Proof.
    intros HA HS done. induction done as [|ij done IH] using rev_ind; intros rem E.
    - exists s2. split; [done|]. split; [done|]. intros a Ha. cbn. unfold lattice_move. cbn. rewrite !Rmult_0_l, !Rplus_0_r. destruct (mem_at s2 a) as [? ? [? ? ?] ? ? ?]; done.
    - rewrite <- app_assoc in E. cbn [app] in E. destruct (IH _ E) as (s3 & F3 & HS3 & H3). assert (Hij : ij ∈ dirs) by (rewrite E; apply elem_of_app; right; by left). destruct ij as [i j].
      destruct (uround_spec A sh i j s3 HA Hij HS3) as (s4 & F4 & HS4 & H4). exists s4. split; [|split; [done|]].
      + rewrite foldM_app, F3. cbn [obind foldM fst snd]. rewrite F4. done.
      + intros a Ha. rewrite reverse_snoc. cbn [ownr fst snd]. rewrite H4 by done. pose proof (step_lt (i, j) a Hij Ha) as Hs. rewrite (H3 _ Hs). rewrite (H3 a Ha). unfold put_pos at 1 2 3. cbn [xPos xId xType xPlan xForce xRest].
        unfold put_pos. cbn [xPos]. f_equal. apply move_add; [done|]. exact (proj1 (dirs_lt _ _ Hij)).
  Qed.

  (** *** Owners *)
  Lemma dirs_sorted done i j rem a b : dirs = done ++ (i, j) :: rem -> (a, b) ∈ dirs -> a < i -> (a, b) ∈ done.
  Proof.
    intros E Hab Hlt. rewrite E in Hab. apply elem_of_app in Hab as [?|Hab]; [done|]. exfalso.
    assert (HS : forall (l : list (nat * nat)) x k, StronglySorted (fun u v => u.1 <= v.1) (l ++ x :: k) -> Forall (fun v => x.1 <= v.1) k).
    { clear. induction l as [|y l IH]; intros x k H; cbn [app] in H; inversion H; subst; [done|]. by apply IH. }
    assert (HD : StronglySorted (fun u v : nat * nat => u.1 <= v.1) dirs) by (unfold dirs; repeat constructor; cbn; lia). rewrite E in HD. apply HS in HD.
    apply elem_of_cons in Hab as [[= -> ->]|Hab]; [lia|]. pose proof (proj1 (Forall_forall _ _) HD _ Hab) as X. cbn in X. lia.
  Qed.
  Definition is_local (a : nat * nat) : Prop := exists p, S !! a.1 = Some p /\ a.2 ∈ xpLocals p.
  Lemma local_not_recv i j a : (i, j) ∈ dirs -> is_local a -> a.2 ∉ recv i j a.1.
  Proof.
    intros Hij (p & Hp & Hh) Hr. destruct (recv_ghost i j _ _ Hij Hr) as (p' & Hp' & Hg). assert (p' = p) by congruence. subst p'.
    pose proof (Forall_lookup_1 _ _ _ _ (gi_live _ _ (lk_ginv _ _ _ _ HL)) Hp) as LV. pose proof (lv_nodup _ LV) as HN. apply NoDup_app in HN as (_ & HN & _). by apply (HN a.2).
  Qed.
  (** Local atoms, and ghosts of the rounds [done]. *)
  Definition known (done : list (nat * nat)) (a : nat * nat) : Prop := a.1 < n /\ (is_local a \/ exists i j, (i, j) ∈ done /\ a.2 ∈ recv i j a.1).
  Lemma step_known done i j rem a : dirs = done ++ (i, j) :: rem -> known (done ++ [(i, j)]) a -> known done (step (i, j) a).1.
  Proof.
    intros E [Ha HK]. assert (Hij : (i, j) ∈ dirs) by (rewrite E; apply elem_of_app; right; by left). destruct (dirs_lt i j Hij) as [Hi Hj].
    destruct (decide (a.2 ∈ recv i j a.1)) as [Hg|Hg].
    - apply elem_of_list_lookup in Hg as [x Hx]. destruct (match_at i j a.1 Hij Ha) as [HLen _]. destruct (lookup_lt_is_Some_2 (send i j (src dims i j a.1)) x) as [h Hh]; [rewrite <- HLen; by eapply lookup_lt_Some|].
      destruct a as [r g]. cbn [fst snd] in *. rewrite (step_in i j r x g h Hij Hx Hh). cbn [fst snd]. assert (Hs : src dims i j r < n) by (by apply src_lt). split; [done|].
      destruct (S_at _ Hs) as [p0 Hp0]. assert (Hh' : h ∈ xpSend p0 i j). { unfold send, atr in Hh. rewrite Hp0 in Hh. by eapply elem_of_list_lookup_2. }
      destruct (lk_send _ _ _ _ HL _ p0 i j h Hi Hj Hp0 Hh') as [Hl|(i' & j' & Hij' & Hlt & Hr)]; [left; exists p0; done|]. right. exists i', j'. split; [by eapply dirs_sorted|].
      unfold recv, atr. cbn [fst snd]. by rewrite Hp0.
    - rewrite (step_out (i, j) a) by done. cbn [fst]. split; [done|]. destruct HK as [?|(i' & j' & Hij' & Hr)]; [by left|]. right. exists i', j'. split; [|done].
      apply elem_of_app in Hij' as [?|Hx]; [done|]. apply elem_of_list_singleton in Hx as [= -> ->]. done.
  Qed.
  Lemma ownr_local done : forall rem a, dirs = done ++ rem -> known done a -> is_local (ownr (reverse done) a).1.
  Proof.
    induction done as [|[i j] done IH] using rev_ind; intros rem a E HK.
    - destruct HK as [_ [?|(i & j & Hij & _)]]; [done|by apply elem_of_nil in Hij].
    - rewrite <- app_assoc in E. cbn [app] in E. rewrite reverse_snoc. cbn [ownr fst snd]. apply (IH _ _ E). by eapply step_known.
  Qed.
  Lemma ownr_self a : is_local a -> forall done rem, dirs = done ++ rem -> ownr (reverse done) a = (a, (V3 0 0 0)%Z).
  Proof.
    intros Ha done. induction done as [|[i j] done IH] using rev_ind; intros rem E; [done|]. rewrite <- app_assoc in E. cbn [app] in E. rewrite reverse_snoc. cbn [ownr fst snd].
    assert (Hij : (i, j) ∈ dirs) by (rewrite E; apply elem_of_app; right; by left). destruct (dirs_lt i j Hij) as [Hi Hj].
    rewrite (step_out (i, j) a) by (by apply local_not_recv). cbn [fst snd]. rewrite (IH _ E). cbn [fst snd]. unfold addk. destruct i as [|[|[|]]]; [done|done|done|lia].
  Qed.
  Lemma shift_add x k i t : i < 3 -> shift_pos (translate x k) i t = translate x (addk k i t).
  Proof. intros Hi. unfold shift_pos, translate, addk. destruct i as [|[|[|]]]; [| | |lia]; cbn [vget vset vx vy vz]; rewrite plus_IZR; f_equal; lra. Qed.
  Lemma ownr_image done : forall rem a, dirs = done ++ rem -> a.1 < n -> is_image (mem_at S (ownr (reverse done) a).1) (ownr (reverse done) a).2 (mem_at S a).
  Proof.
    induction done as [|[i j] done IH] using rev_ind; intros rem a E Ha.
    - cbn. repeat split. by rewrite translate_0.
    - rewrite <- app_assoc in E. cbn [app] in E. rewrite reverse_snoc. cbn [ownr fst snd]. assert (Hij : (i, j) ∈ dirs) by (rewrite E; apply elem_of_app; right; by left). destruct (dirs_lt i j Hij) as [Hi Hj].
      pose proof (IH _ (step (i, j) a).1 E (step_lt (i, j) a Hij Ha)) as (I1 & I2 & I3).
      destruct (decide (a.2 ∈ recv i j a.1)) as [Hg|Hg].
      + apply elem_of_list_lookup in Hg as [x Hx]. destruct (match_at i j a.1 Hij Ha) as [HLen HM]. destruct (lookup_lt_is_Some_2 (send i j (src dims i j a.1)) x) as [h Hh]; [rewrite <- HLen; by eapply lookup_lt_Some|].
        destruct (HM x _ h Hx Hh) as (C1 & C2 & C3). destruct a as [r g]. cbn [fst snd] in *. rewrite (step_in i j r x g h Hij Hx Hh) in *. cbn [fst snd] in *.
        split; [congruence|]. split; [congruence|]. rewrite C3, I3. by apply shift_add.
      + rewrite (step_out (i, j) a) in * by done. cbn [fst snd] in *. split; [done|]. split; [done|]. rewrite I3. f_equal. unfold addk.
        destruct (ownr (reverse done) a).2 as [k0 k1 k2]. destruct i as [|[|[|]]]; [| | |lia]; cbn [vget vset vx vy vz]; f_equal; lia.
  Qed.

  (** *** Forces *)
  Definition RA (ij : nat * nat) : list (nat * nat) := flat_map (fun r => map (pair r) (recv ij.1 ij.2 r)) (seq 0 n).
  Lemma elem_RA ij a : a ∈ RA ij <-> a.1 < n /\ a.2 ∈ recv ij.1 ij.2 a.1.
  Proof.
    unfold RA. rewrite elem_of_flat_map. split.
    - intros (r & Hr & H). apply elem_of_map in H as (g & -> & Hg). cbn. split; [|done]. apply elem_of_seq in Hr. lia.
    - intros [H1 H2]. exists a.1. split; [apply elem_of_seq; lia|]. apply elem_of_map. exists a.2. split; [by destruct a|done].
  Qed.
  Definition fo (s : list xproc) (c : nat) (a : nat * nat) : R := vget (xForce (mem_at s a)) c.
  Lemma sum_zip (F : nat -> vec3 R) (c h : nat) (G : nat -> R) : forall l k, length l = length k ->
    (forall x s g, l !! x = Some s -> k !! x = Some g -> G g = (if decide (s = h) then vget (F g) c else 0)%R) ->
    sum_over (zip l (map F k)) (fun kf => if decide (kf.1 = h) then vget kf.2 c else 0%R) = sum_over k G.
  Proof.
    induction l as [|s l IH]; intros [|g k] Hl HG; try discriminate; [done|]. cbn [map zip zip_with]. rewrite !sum_cons. cbn [fst snd]. rewrite (HG 0 s g eq_refl eq_refl).
    f_equal. apply IH; [by injection Hl|]. intros x s' g' H1 H2. exact (HG (Datatypes.S x) s' g' H1 H2).
  Qed.

  Lemma rround_spec i j s2 : (i, j) ∈ dirs -> same_lists S s2 ->
    exists s3, rround i j s2 = Ok s3 /\ same_lists S s3 /\
      forall a, a.1 < n -> exists f, mem_at s3 a = put_force (mem_at s2 a) f /\
        forall c, c < 3 -> vget f c = (fo s2 c a + sum_over (RA (i, j)) (fun b => if decide ((step (i, j) b).1 = a) then fo s2 c b else 0))%R.
  Proof.
    intros Hij HS. destruct (dirs_lt i j Hij) as [Hi Hj].
    set (F := fun r g => xForce (mem_at s2 (dst dims i j r, g))).
    set (msg := fun r => map (F r) (recv i j (dst dims i j r))).
    set (nm := fun (r : nat) (p : xproc) => fold_left add_force (zip (send i j r) (msg r)) (xpMem p)).
    exists (imap (fun r p => with_mem p (nm r p)) s2). split; [|split; [by apply same_with|]].
    - unfold rround. apply (mapO_imap _ (fun r p => with_mem p (nm r p)) s2 0). intros r p Hp. cbn [Nat.add].
      assert (Hr : r < n) by (rewrite <- (same_len _ HS); by eapply lookup_lt_Some). destruct (same_at s2 r HS Hr) as (p' & Hp' & HD & HSd & HRv). assert (p' = p) by congruence. subst p'.
      destruct (dom_tables _ Hd _ _ HD) as (_ & _ & Ht). destruct (Ht i j Hi Hj) as (_ & Hs & _). pose proof (flag_iff _ Hd _ _ i HD Hi) as Hfl.
      assert (HM : (if xflag (xpDom p) i then aget (map (fun p => map (fun h => xForce (xpMem p h)) (xpRecv p i j)) s2) (Z.to_nat (dDest (xpDom p) i j)) else Ok (map (fun h => xForce (xpMem p h)) (xpRecv p i j))) = Ok (msg r)).
      { destruct (xflag (xpDom p) i) eqn:Hf.
        - rewrite Hs. destruct (same_at s2 (dst dims i j r) HS) as (q & Hq & _ & _ & HRq); [by apply dst_lt|]. apply aget_Ok. rewrite list_lookup_fmap, Hq. cbn. f_equal. unfold msg, F, mem_at. cbn [fst snd]. rewrite Hq, HRq. done.
        - f_equal. symmetry in Hfl. apply bool_decide_eq_false in Hfl. pose proof (vget3_pos _ i Hd). destruct (dst_one _ Hd i j r Hi Hr) as [E _]; [lia|]. unfold msg, F, mem_at. cbn [fst snd]. rewrite E, Hp, HRv. done. }
      rewrite HM. cbn [obind]. rewrite decide_True.
      + unfold nm. rewrite HSd. done.
      + rewrite HSd. unfold msg. rewrite map_length. rewrite (proj1 (match_at i j (dst dims i j r) Hij (dst_lt _ Hd i j r Hi Hr))). by rewrite src_dst.
    - intros [r h] Hr. cbn [fst] in Hr. destruct (same_at s2 r HS Hr) as (p & Hp & HD & HSd & HRv).
      unfold mem_at at 1. cbn [fst snd]. rewrite list_lookup_imap, Hp. cbn [fmap option_fmap option_map with_mem xpMem]. unfold nm.
      assert (HMp : mem_at s2 (r, h) = xpMem p h) by (unfold mem_at; cbn [fst snd]; by rewrite Hp).
      destruct (add_force_all (zip (send i j r) (msg r)) (xpMem p) h) as (f & E & Hf). exists f. split; [by rewrite HMp|]. intros c Hc. rewrite Hf by done. unfold fo at 1. rewrite HMp. f_equal.
      assert (Hdr : dst dims i j r < n) by (by apply dst_lt). destruct (match_at i j (dst dims i j r) Hij Hdr) as [HLen _]. rewrite src_dst in HLen by done.
      unfold RA. rewrite sum_flat. cbn [fst snd]. unfold msg.
      rewrite (sum_zip (F r) c h (fun g => if decide ((step (i, j) (dst dims i j r, g)).1 = (r, h)) then fo s2 c (dst dims i j r, g) else 0%R)).
      + symmetry. etrans; [apply (sum_one _ _ (dst dims i j r))|].
        * apply NoDup_seq.
        * apply elem_of_seq. lia.
        * intros r' Hr' Hne. apply elem_of_seq in Hr'. apply sum_0. intros b Hb. apply elem_of_map in Hb as (g & -> & Hg). apply elem_of_list_lookup in Hg as [x Hx].
          destruct (match_at i j r' Hij) as [HLen' _]; [lia|]. destruct (lookup_lt_is_Some_2 (send i j (src dims i j r')) x) as [h' Hh']; [rewrite <- HLen'; by eapply lookup_lt_Some|].
          rewrite (step_in i j r' x g h' Hij Hx Hh'). cbn [fst]. rewrite decide_False; [done|]. intros [= E1 _]. apply Hne. rewrite <- E1. symmetry. apply dst_src; try done; lia.
        * rewrite sum_map. done.
      + done.
      + intros x s g Hs Hg. rewrite (step_in i j (dst dims i j r) x g s Hij Hg) by (by rewrite src_dst). cbn [fst]. rewrite src_dst by done. destruct (decide (s = h)) as [->|Hn].
        * rewrite decide_True by done. done.
        * rewrite decide_False; [done|]. intros [= ?]. done.
  Qed.

  Lemma sum_pick {A} `{EqDecision A} (phi : A -> R) T b : NoDup T -> b ∈ T -> sum_over T (fun a => if decide (b = a) then phi a else 0)%R = phi b.
  Proof.
    intros Hn Hb. rewrite (sum_one _ T b Hn Hb); [by rewrite decide_True|]. intros x _ Hx. by rewrite decide_False.
  Qed.
  Lemma round_dual i j s2 s3 T c phi : c < 3 -> NoDup T -> (forall a, a ∈ T -> a.1 < n) -> (forall b, b ∈ RA (i, j) -> (step (i, j) b).1 ∈ T) ->
    (forall a, a.1 < n -> exists f, mem_at s3 a = put_force (mem_at s2 a) f /\
        forall c, c < 3 -> vget f c = (fo s2 c a + sum_over (RA (i, j)) (fun b => if decide ((step (i, j) b).1 = a) then fo s2 c b else 0))%R) ->
    (sum_over T (fun a => fo s3 c a * phi a) = sum_over T (fun a => fo s2 c a * phi a) + sum_over (RA (i, j)) (fun b => fo s2 c b * phi (step (i, j) b).1))%R.
  Proof.
    intros Hc HN HT Hin H.
    rewrite (sum_ext _ (fun a => fo s2 c a * phi a + sum_over (RA (i, j)) (fun b => if decide ((step (i, j) b).1 = a) then fo s2 c b * phi a else 0))%R).
    2: { intros a Ha. destruct (H a (HT a Ha)) as (f & E & Hf). unfold fo at 1. rewrite E. cbn [put_force xForce]. rewrite Hf by done. rewrite Rmult_plus_distr_r. f_equal.
         rewrite Rmult_comm, <- sum_scale. apply sum_ext. intros b _. destruct (decide _); lra. }
    rewrite EnergyProofs.sum_plus. f_equal. rewrite sum_swap. apply sum_ext. intros b Hb.
    rewrite <- (sum_pick (fun a => fo s2 c b * phi a)%R T (step (i, j) b).1 HN (Hin b Hb)). done.
  Qed.

  Definition LA (done : list (nat * nat)) : list (nat * nat) := local_addrs S ++ flat_map RA done.
  Lemma elem_local a : a ∈ local_addrs S <-> is_local a.
  Proof.
    unfold local_addrs, is_local. rewrite elem_of_flat_map. split.
    - intros (r & Hr & H). destruct (S !! r) as [p|] eqn:E; [|by apply elem_of_nil in H]. apply elem_of_map in H as (g & -> & Hg). cbn. eauto.
    - intros (p & Hp & H). exists a.1. split; [apply elem_of_seq; apply lookup_lt_Some in Hp; lia|]. rewrite Hp. apply elem_of_map. exists a.2. split; [by destruct a|done].
  Qed.
  Lemma elem_LA done a : a ∈ LA done <-> known done a.
  Proof.
    unfold LA, known. rewrite elem_of_app, elem_local, elem_of_flat_map. split.
    - intros [H|([i j] & Hij & H)].
      + split; [|by left]. destruct H as (p & Hp & _). rewrite <- S_len. by eapply lookup_lt_Some.
      + apply elem_RA in H as [H1 H2]. split; [done|]. right. eauto.
    - intros [H1 [H|(i & j & Hij & H)]]; [by left|]. right. exists (i, j). split; [done|]. by apply elem_RA.
  Qed.
  Lemma nodup_pairs (f : nat -> list nat) l : NoDup l -> (forall r, r ∈ l -> NoDup (f r)) -> NoDup (flat_map (fun r => map (pair r) (f r)) l).
  Proof.
    induction l as [|r l IH]; intros Hn Hf; cbn [flat_map]; [constructor|]. apply NoDup_cons in Hn as [Hr Hn]. apply NoDup_app. split; [|split].
    - apply (NoDup_fmap_2 (pair r)). apply Hf. by left.
    - intros a H1 H2. apply elem_of_map in H1 as (g & -> & _). apply elem_of_flat_map in H2 as (r' & Hr' & H2). apply elem_of_map in H2 as (g' & [= -> _] & _). done.
    - apply IH; [done|]. intros r' Hr'. apply Hf. by right.
  Qed.
  Lemma local_nodup : NoDup (local_addrs S).
  Proof.
    unfold local_addrs. match goal with |- NoDup ?l => replace l with (flat_map (fun r => map (pair r) (atr xpLocals S r)) (seq 0 (length S))) end.
    - apply nodup_pairs; [apply NoDup_seq|]. intros r _. unfold atr. destruct (S !! r) as [p|] eqn:E; [|constructor].
      pose proof (Forall_lookup_1 _ _ _ _ (gi_live _ _ (lk_ginv _ _ _ _ HL)) E) as LV. pose proof (lv_nodup _ LV) as HN. by apply NoDup_app in HN as (? & _).
    - apply flat_map_ext_in. intros r _. unfold atr. by destruct (S !! r).
  Qed.
  Lemma known_not_recv done i j rem a : dirs = done ++ (i, j) :: rem -> known done a -> a.2 ∉ recv i j a.1.
  Proof.
    intros E [Ha HK]. assert (Hij : (i, j) ∈ dirs) by (rewrite E; apply elem_of_app; right; by left). destruct HK as [HK|(i' & j' & Hij' & Hr)]; [by apply local_not_recv|].
    intros Hr'. apply elem_of_list_split in Hij' as (u & v & ->). rewrite <- app_assoc in E. cbn [app] in E.
    exact (proj2 (flat_nodup _ _ (ghosts_nodup a.1)) (i', j') (i, j) a.2 u v rem E Hr Hr').
  Qed.
  Lemma LA_nodup done : forall rem, dirs = done ++ rem -> NoDup (LA done).
  Proof.
    induction done as [|[i j] done IH] using rev_ind; intros rem E.
    - unfold LA. cbn [flat_map]. rewrite app_nil_r. exact local_nodup.
    - rewrite <- app_assoc in E. cbn [app] in E. assert (Hij : (i, j) ∈ dirs) by (rewrite E; apply elem_of_app; right; by left).
      unfold LA. rewrite flat_map_app, app_assoc. cbn [flat_map]. rewrite app_nil_r. apply NoDup_app. split; [exact (IH _ E)|]. split.
      + intros a H1 H2. apply (elem_LA done) in H1. apply elem_RA in H2 as [_ H2]. by apply (known_not_recv done i j rem a E H1).
      + unfold RA. apply nodup_pairs; [apply NoDup_seq|]. intros r _. by apply recv_nodup.
  Qed.

  Lemma reverses done : forall rem, dirs = done ++ rem -> forall s2, same_lists S s2 ->
    exists s3, foldM (fun sys ij => rround ij.1 ij.2 sys) s2 (reverse done) = Ok s3 /\ same_lists S s3 /\
      (forall a, a.1 < n -> exists f, mem_at s3 a = put_force (mem_at s2 a) f) /\
      forall c phi, c < 3 -> (sum_over (local_addrs S) (fun a => fo s3 c a * phi a) = sum_over (LA done) (fun b => fo s2 c b * phi (ownr (reverse done) b).1))%R.
  Proof.
    induction done as [|[i j] done IH] using rev_ind; intros rem E s2 HS.
    - exists s2. split; [done|]. split; [done|]. split; [intros a _; exists (xForce (mem_at s2 a)); by destruct (mem_at s2 a)|]. intros c phi Hc. unfold LA. cbn [flat_map]. rewrite app_nil_r. done.
    - rewrite <- app_assoc in E. cbn [app] in E. assert (Hij : (i, j) ∈ dirs) by (rewrite E; apply elem_of_app; right; by left).
      destruct (rround_spec i j s2 Hij HS) as (s3 & F3 & HS3 & H3). destruct (IH _ E s3 HS3) as (s4 & F4 & HS4 & M4 & H4).
      exists s4. split; [|split; [done|split]].
      + rewrite reverse_snoc. cbn [foldM fst snd]. rewrite F3. cbn [obind]. exact F4.
      + intros a Ha. destruct (M4 a Ha) as [f ->]. destruct (H3 a Ha) as (g & -> & _). exists f. done.
      + intros c phi Hc. rewrite H4 by done.
        rewrite (round_dual i j s2 s3 (LA done) c (fun b => phi (ownr (reverse done) b).1) Hc (LA_nodup done _ E)); [| | |done].
        * assert (EL : LA (done ++ [(i, j)]) = LA done ++ RA (i, j)) by (unfold LA; rewrite flat_map_app, app_assoc; cbn [flat_map]; by rewrite app_nil_r).
          rewrite EL, sum_app. f_equal.
          -- apply sum_ext. intros a Ha. apply elem_LA in Ha. rewrite reverse_snoc. cbn [ownr fst]. rewrite (step_out (i, j) a); [done|]. by eapply known_not_recv.
          -- apply sum_ext. intros b Hb. rewrite reverse_snoc. done.
        * intros a Ha. apply elem_LA in Ha. apply Ha.
        * intros b Hb. apply elem_LA. eapply step_known; [exact E|]. apply elem_RA in Hb as [B1 B2]. split; [done|]. right. exists i, j. split; [apply elem_of_app; right; by left|done].
  Qed.
  Lemma sum_LA (f : nat * nat -> R) : sum_over (LA dirs) f = (sum_over (local_addrs S) f + sum_over (ghost_addrs S) f)%R.
  Proof.
    unfold LA. rewrite sum_app. f_equal. rewrite sum_flat. unfold RA. unfold ghost_addrs. rewrite S_len.
    rewrite (sum_ext _ (fun ij => sum_over (seq 0 n) (fun r => sum_over (map (pair r) (recv ij.1 ij.2 r)) f))) by (intros; by rewrite sum_flat).
    rewrite sum_swap, sum_flat. apply sum_ext. intros r Hr. apply elem_of_seq in Hr. destruct (S_at r) as [p Hp]; [lia|]. rewrite Hp, (recv_all r p Hp), sum_map, sum_flat. apply sum_ext. intros ij _. by rewrite sum_map.
  Qed.
  Lemma elem_ghost a : a ∈ ghost_addrs S <-> exists p, S !! a.1 = Some p /\ a.2 ∈ xpGhosts p.
  Proof.
    unfold ghost_addrs. rewrite elem_of_flat_map. split.
    - intros (r & Hr & H). destruct (S !! r) as [p|] eqn:E; [|by apply elem_of_nil in H]. apply elem_of_map in H as (g & -> & Hg). cbn. eauto.
    - intros (p & Hp & H). exists a.1. split; [apply elem_of_seq; apply lookup_lt_Some in Hp; lia|]. rewrite Hp. apply elem_of_map. exists a.2. split; [by destruct a|done].
  Qed.
  Lemma ghost_known a : a ∈ ghost_addrs S -> known dirs a.
  Proof.
    intros (p & Hp & Hg)%elem_ghost. split; [rewrite <- S_len; by eapply lookup_lt_Some|]. right. rewrite (recv_all _ p Hp) in Hg. apply elem_of_flat_map in Hg as ([i j] & Hij & Hg). eauto.
  Qed.
End upd.
