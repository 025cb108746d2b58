(** Deleting and growing one atom, and the loops of CfbEndMove::move at the far end of the chain. *)
From stdpp Require Import gmap.
From Verif Require Import Base Vec3 BoxSpec McCellModel DomainModel SpeciesModel SpeciesProofs CellListModel CellListSpec CellListProofs
  PairListModel PairListSpec EnergyModel EnergySpec EnergyProofs MoveModel MoveSpec MoveProofs CfbModel CfbSpec CfbProofs.
From Coq Require Import Reals Lra.
Local Open Scope R_scope.

Lemma NoDup_drop_aux (c : list nat) j : NoDup c -> NoDup (drop j c).
Proof. intros H. rewrite <- (take_drop j c) in H. by apply NoDup_app in H as (_ & _ & ?). Qed.

Section Steps.
  Context (M cap : nat) (HM : (2 <= M)%nat) (toGen : vec3 R -> vec3 R) (dist2 : vec3 R -> vec3 R -> R) (wrap : vec3 R -> vec3 R) (sep : vec3 R -> vec3 R -> vec3 R).
  Context (lens : vec3 R) (n : vec3 Z).
  Context (masked : nat -> nat -> bool) (u : R -> Z -> Z -> R) (cut : R) (ang : option angpot) (ext : option (vec3 R -> Z -> R)) (vb : R -> Z -> R) (beta : R).
  Context (HL : positive3 lens) (Hc : 0 < cut) (HG : grid_of lens cut n).
  Context (Hadj : forall r q, primary (toGen r) -> primary (toGen q) -> dist2 r q < cut * cut ->
             adjacent n (ccell n (toGen r)) (ccell n (toGen q))).
  Context (Hcut : forall r t1 t2, cut * cut <= r -> u r t1 t2 = 0).
  Context (Hd : forall r q, dist2 r q = dist2 q r) (Hu : forall r t1 t2, u r t1 t2 = u r t2 t1)
          (Hm : forall i j, masked i j = masked j i) (Hsep : forall r q, sep r q = vscale (-1) (sep q r)).
  Context (A c : list nat) (fw : bool) (HA : NoDup A) (Hcd : NoDup c) (HcA : c ⊆ A) (jmin : nat).
  Context (Hang : match ang with None => True | Some ap => cangles A c fw (apK ap) /\ (2 <= jmin)%nat end) (Hj1 : (1 <= jmin)%nat).
  Local Notation hold := (holding M cap toGen lens cut n).
  Local Notation rem := (remaining A c).
  Local Notation PE := (part_energy dist2 sep masked u ang ext).
  Local Notation at_ := (nth_atom c).
  Local Notation rosen := (rosenbluth dist2 sep masked u ang ext beta A c).
  Local Notation tri := (trials wrap c).
  Local Notation old_trials := (old_trials dist2 wrap c).
  Local Notation new_trials := (new_trials wrap c).
  Local Notation energy := (cfb_energy M toGen dist2 sep masked u ang ext).

  Lemma rem_mem j a : a ∈ rem j <-> a ∈ A /\ a ∉ drop j c.
  Proof.
    unfold remaining. rewrite elem_of_list_In, filter_In, <- elem_of_list_In. rewrite negb_true_iff, bool_decide_eq_false. done.
  Qed.
  Lemma rem_nodup j : NoDup (rem j).
  Proof. unfold remaining. apply NoDup_ListNoDup, List.NoDup_filter. by apply NoDup_ListNoDup. Qed.
  Lemma rem_chain j i : (i < length c)%nat -> at_ i ∈ rem j <-> (i < j)%nat.
  Proof.
    intros Hi. rewrite rem_mem, elem_drop by done. assert (at_ i ∈ A) by (apply HcA, nth_elem; done). split; [intros [_ ?]; lia|]. intros. split; [done|lia].
  Qed.
  Lemma rem_S j a : (j < length c)%nat -> a ∈ rem (S j) <-> a ∈ rem j \/ a = at_ j.
  Proof.
    intros Hj. rewrite !rem_mem, (drop_S c (at_ j) j) by (by apply nth_in). rewrite elem_of_cons. split.
    - intros [H1 H2]. destruct (decide (a = at_ j)); [by right|left; tauto].
    - intros [[H1 H2]| ->]; [tauto|]. split; [apply HcA, nth_elem; done|]. rewrite elem_drop by done. lia.
  Qed.
  Lemma rem_perm j : (j < length c)%nat -> rem (S j) ≡ₚ at_ j :: rem j.
  Proof.
    intros Hj. apply NoDup_Permutation; [apply rem_nodup| |].
    - apply NoDup_cons. split; [|apply rem_nodup]. rewrite rem_chain by done. lia.
    - intros a. rewrite rem_S by done. rewrite elem_of_cons. tauto.
  Qed.
  Lemma rem_full : rem (length c) = A.
  Proof.
    unfold remaining. rewrite drop_all. rewrite <- (List.filter_ext_in (fun _ => true)).
    - clear. induction A; cbn; congruence.
    - intros a _. symmetry. apply negb_true_iff, bool_decide_eq_false, not_elem_of_nil.
  Qed.

  Lemma PE_ext S pos pos' ty : (forall a, a ∈ S -> pos a = pos' a) -> PE S pos ty = PE S pos' ty.
  Proof.
    intros E. unfold part_energy. f_equal; [f_equal|].
    - unfold pair_energy. apply sum_ext. intros i Hi. apply sum_ext. intros j Hj. by rewrite !E by done.
    - unfold angle_energy. destruct ang as [ap|]; [|done]. apply sum_ext. intros m _. apply sum_ext. intros g _.
      destruct (decide _) as [Hf|]; [|done]. f_equal. apply map_ext_in. intros a Ha%elem_of_list_In. rewrite Forall_forall in Hf. by apply E, Hf.
    - unfold external_energy. apply sum_ext. intros a Ha. by rewrite E.
  Qed.
  Lemma insertion_ext pos pos' ty j q : (forall a, a ∈ rem j -> pos a = pos' a) -> (j < length c)%nat ->
    insertion dist2 sep masked u ang ext A c pos ty j q = insertion dist2 sep masked u ang ext A c pos' ty j q.
  Proof.
    intros E Hj. unfold insertion. rewrite (PE_ext (rem j) pos pos') by done. f_equal. apply PE_ext. intros a Ha.
    destruct (decide (a = at_ j)); [done|]. apply E. apply rem_S in Ha; [|done]. tauto.
  Qed.
  Lemma rosen_ext pos pos' ty j qs : (forall a, a ∈ rem j -> pos a = pos' a) -> (j < length c)%nat -> rosen pos ty j qs = rosen pos' ty j qs.
  Proof. intros E Hj. unfold rosenbluth. apply sum_ext. intros q _. by rewrite (insertion_ext pos pos'). Qed.

  Lemma pair_eq s Q j : (j < length c)%nat -> (hold (rem j) (sCells s) Q \/ hold (rem (S j)) (sCells s) Q) ->
    (forall b, b ∈ rem j -> Q b = sPos s b) -> primary (toGen (sPos s (at_ j))) ->
    pair_atom M toGen dist2 masked u s (at_ j) = Ok (sum_over (rem j) (w dist2 masked u (sPos s) (sTy s) (at_ j))).
  Proof.
    intros Hj Hh HQ Hp. set (e := at_ j).
    assert (e ∉ rem j) as Hen by (unfold e; rewrite rem_chain by lia; lia).
    destruct Hh as [Hh|Hh].
      - destruct (holding_clinv M cap HM toGen lens cut n _ HL Hc HG _ _ Hh) as (h & I & Hhh).
        rewrite (pair_atom_eq M cap HM toGen dist2 n masked u cut (rem j) (rem_nodup j) Hadj Hcut s h e I Hp).
        + f_equal. apply sum_ext. intros b Hb. rewrite decide_False; [done|]. by intros ->.
        + split.
          * intros a. rewrite Hhh. destruct (decide (a ∈ rem j)); split; try done; eauto. by intros [? ?].
          * intros a Ha _. rewrite Hhh, decide_True by done. by rewrite HQ.
      - destruct (holding_clinv M cap HM toGen lens cut n _ HL Hc HG _ _ Hh) as (h & I & Hhh).
        rewrite (pair_atom_eq M cap HM toGen dist2 n masked u cut (rem (S j)) (rem_nodup (S j)) Hadj Hcut s h e I Hp).
        + f_equal. rewrite (sum_perm _ _ _ (rem_perm j ltac:(lia))), sum_cons. fold e. rewrite decide_True by done. rewrite Rplus_0_l.
          apply sum_ext. intros b Hb. rewrite decide_False; [done|]. by intros ->.
        + split.
          * intros a. rewrite Hhh. destruct (decide (a ∈ rem (S j))); split; try done; eauto. by intros [? ?].
          * intros a Ha Hn. rewrite Hhh, decide_True by done. rewrite HQ; [done|]. apply rem_S in Ha as [?| ->]; [done| |lia]. exfalso. apply Hn. left.
  Qed.
  Lemma energy_eq s Q j : (jmin <= j < length c)%nat -> (hold (rem j) (sCells s) Q \/ hold (rem (S j)) (sCells s) Q) ->
    (forall b, b ∈ rem j -> Q b = sPos s b) -> primary (toGen (sPos s (at_ j))) ->
    energy s (at_ j) (at_ (j - 1)) = Ok (PE (rem (S j)) (sPos s) (sTy s) - PE (rem j) (sPos s) (sTy s)).
  Proof.
    intros Hj Hh HQ Hp. set (e := at_ j).
    assert (e ∉ rem j) as Hen by (unfold e; rewrite rem_chain by lia; lia).
    pose proof (pair_eq s Q j ltac:(lia) Hh HQ Hp) as E1. fold e in E1.
    assert (cfb_angle dist2 sep ang s e (at_ (j - 1)) = Ok (angle_energy dist2 sep ang (rem (S j)) (sPos s) - angle_energy dist2 sep ang (rem j) (sPos s))) as E2.
    { destruct ang as [ap|].
      - destruct Hang as [Hca H2]. apply (cfb_angle_eq dist2 sep ap A c fw Hd Hsep Hca Hcd HcA); [lia| |].
        + intros a. apply rem_S. lia.
        + intros i Hi. by apply rem_chain.
      - cbn. f_equal. ring. }
    unfold cfb_energy. rewrite E1, E2. cbn [obind]. f_equal. unfold part_energy.
    change (pair_energy dist2 masked u (rem (S j)) (sPos s) (sTy s)) with (half_pairs (rem (S j)) (w dist2 masked u (sPos s) (sTy s))).
    change (pair_energy dist2 masked u (rem j) (sPos s) (sTy s)) with (half_pairs (rem j) (w dist2 masked u (sPos s) (sTy s))).
    rewrite (half_permut _ _ _ (rem_perm j ltac:(lia))). rewrite half_cons; [|done|intros; by apply w_sym]. fold e.
    unfold external_energy at 1. rewrite (sum_perm _ _ _ (rem_perm j ltac:(lia))), sum_cons. fold e. fold (external_energy ext (rem j) (sPos s) (sTy s)).
    unfold ext_atom. ring.
  Qed.
  Lemma energy_insert s Q pos j q : (jmin <= j < length c)%nat -> (hold (rem j) (sCells s) Q \/ hold (rem (S j)) (sCells s) Q) ->
    (forall b, b ∈ rem j -> Q b = pos b) -> (forall b, b ∈ rem j -> sPos s b = pos b) -> sPos s (at_ j) = q -> primary (toGen q) ->
    energy s (at_ j) (at_ (j - 1)) = Ok (insertion dist2 sep masked u ang ext A c pos (sTy s) j q).
  Proof.
    intros Hj Hh HQ Hs <- Hp. rewrite (energy_eq s Q j Hj Hh) by (done || (intros; rewrite HQ by done; by rewrite Hs)). f_equal. unfold insertion. f_equal.
    - apply PE_ext. intros a Ha. destruct (decide (a = at_ j)) as [->|]; [done|]. apply Hs. apply rem_S in Ha; [tauto|lia].
    - by apply PE_ext.
  Qed.

  Lemma pivot_rem j : (1 <= j < length c)%nat -> at_ (j - 1) ∈ rem j /\ at_ (j - 1) <> at_ j.
  Proof. intros Hj. split; [apply rem_chain; lia|]. intros E. apply nth_inj in E; try done; lia. Qed.

  Lemma delete_ok s j t bs : (jmin <= j < length c)%nat -> hold (rem (S j)) (sCells s) (sPos s) ->
    let len := sqrt (dist2 (sPos s (at_ (j - 1))) (sPos s (at_ j))) in
    (forall q, q ∈ tri (sPos s) j len bs -> primary (toGen q)) ->
    exists s' en, deleteEndAtom M toGen dist2 wrap sep masked u ang ext vb beta s (at_ j) (at_ (j - 1)) t bs =
        Ok (s', rosen (sPos s) (sTy s) j (sPos s (at_ j) :: tri (sPos s) j len bs), en) /\
      sCells s' = sCells s /\ sTy s' = sTy s /\ forall b, b <> at_ j -> sPos s' b = sPos s b.
  Proof.
    intros Hj Hh len Hpr. destruct (pivot_rem j ltac:(lia)) as [Hpv Hpe]. unfold deleteEndAtom. cbv zeta.
    assert (primary (toGen (sPos s (at_ j)))) as Hp.
    { apply (holding_prim M cap HM toGen lens cut n _ HL Hc HG _ _ (at_ j) Hh). apply rem_chain; lia. }
    rewrite (energy_insert s (sPos s) (sPos s) j (sPos s (at_ j))); [|lia|by right|done|done|done|done]. cbn [obind]. fold len.
    set (f := fun q => exp (- beta * insertion dist2 sep masked u ang ext A c (sPos s) (sTy s) j q)).
    assert (forall bs x, (forall q, q ∈ tri (sPos s) j len bs -> primary (toGen q)) -> sCells x.1 = sCells s -> sTy x.1 = sTy s ->
              (forall b, b <> at_ j -> sPos x.1 b = sPos s b) ->
              exists s', foldM (fun x b => let s0 := cfb_try wrap x.1 (at_ j) (sPos s (at_ (j - 1))) len b in
                 let? t := energy s0 (at_ j) (at_ (j - 1)) in Ok (s0, x.2 + boltzmann beta t)) x bs = Ok (s', x.2 + sum_over (tri (sPos s) j len bs) f) /\
                sCells s' = sCells s /\ sTy s' = sTy s /\ forall b, b <> at_ j -> sPos s' b = sPos s b) as Loop.
    { clear bs Hpr. induction bs as [|b bs IH]; intros [x W] Hpr E1 E2 E3; cbn [fst snd] in *.
      - exists x. cbn [foldM]. split; [|done]. unfold trials. cbn [map]. rewrite sum_nil. by rewrite Rplus_0_r.
      - cbn [foldM fst snd]. cbv zeta. set (q := wrap (vadd (sPos s (at_ (j - 1))) (vscale len b))).
        rewrite (energy_insert (cfb_try wrap x (at_ j) (sPos s (at_ (j - 1))) len b) (sPos s) (sPos s) j q); cbn [cfb_try sCells sPos sTy];
          [|lia|right; by rewrite E1|done| | |].
        + cbn [obind]. destruct (IH (cfb_try wrap x (at_ j) (sPos s (at_ (j - 1))) len b, W + boltzmann beta (insertion dist2 sep masked u ang ext A c (sPos s) (sTy x) j q)))
            as (s' & -> & H2 & H3 & H4); cbn [fst snd cfb_try sCells sTy sPos].
          * intros q' Hq'. apply Hpr. unfold trials. cbn [map]. by right.
          * done.
          * done.
          * intros b' Hb'. by rewrite move_ne, E3.
          * exists s'. split; [|done]. f_equal. f_equal. unfold trials at 2. cbn [map]. rewrite sum_cons. fold q. unfold f at 2, boltzmann. rewrite E2. unfold trials. ring.
        + intros b' Hb'. rewrite move_ne; [apply E3|]; intros ->; apply rem_chain in Hb'; lia.
        + by rewrite move_eq.
        + apply Hpr. unfold trials. cbn [map]. left. }
    cbv zeta in Loop. destruct (Loop bs (s, boltzmann beta (insertion dist2 sep masked u ang ext A c (sPos s) (sTy s) j (sPos s (at_ j))))) as (s' & -> & H2 & H3 & H4); [done..|].
    cbn [obind fst snd]. eexists s', _. split; [|done]. unfold rosenbluth. rewrite sum_cons. reflexivity.
  Qed.

  Lemma add_ok s Q pos j t draw bs k b : (jmin <= j < length c)%nat -> hold (rem j) (sCells s) Q ->
    (forall a, a ∈ rem j -> Q a = pos a) -> (forall a, a ∈ rem j -> sPos s a = pos a) ->
    (forall q, q ∈ tri pos j (draw t) bs -> primary (toGen q)) -> bs !! k = Some b ->
    exists s' en, addEndAtom M toGen dist2 wrap sep masked u ang ext vb beta s (at_ j) (at_ (j - 1)) t draw bs k =
        Ok (s', rosen pos (sTy s) j (tri pos j (draw t) bs), en) /\
      sCells s' = sCells s /\ sTy s' = sTy s /\ sPos s' (at_ j) = wrap (vadd (pos (at_ (j - 1))) (vscale (draw t) b)) /\
      forall a, a <> at_ j -> sPos s' a = sPos s a.
  Proof.
    intros Hj Hh HQ Hs Hpr Hk. destruct (pivot_rem j ltac:(lia)) as [Hpv Hpe]. unfold addEndAtom. cbv zeta. set (len := draw t) in *.
    set (f := fun q => exp (- beta * insertion dist2 sep masked u ang ext A c pos (sTy s) j q)).
    assert (forall bs x, (forall q, q ∈ tri pos j len bs -> primary (toGen q)) -> sCells x.1.1 = sCells s -> sTy x.1.1 = sTy s ->
              (forall a, a <> at_ j -> sPos x.1.1 a = sPos s a) ->
              exists s' l, foldM (fun (x : mcs * list (vec3 R * R) * R) b => let s0 := cfb_try wrap x.1.1 (at_ j) (sPos s (at_ (j - 1))) len b in
                 let? t := energy s0 (at_ j) (at_ (j - 1)) in Ok (s0, x.1.2 ++ [(sPos s0 (at_ j), t)], x.2 + boltzmann beta t)) x bs =
                   Ok (s', x.1.2 ++ l, x.2 + sum_over (tri pos j len bs) f) /\ map fst l = tri pos j len bs /\
                sCells s' = sCells s /\ sTy s' = sTy s /\ forall a, a <> at_ j -> sPos s' a = sPos s a) as Loop.
    { clear bs Hpr Hk. induction bs as [|b' bs IH]; intros [[x l0] W] Hpr E1 E2 E3; cbn [fst snd] in *.
      - exists x, []. cbn [foldM]. rewrite app_nil_r. split; [|done]. unfold trials. cbn [map]. rewrite sum_nil. by rewrite Rplus_0_r.
      - cbn [foldM fst snd]. cbv zeta. set (q := wrap (vadd (pos (at_ (j - 1))) (vscale len b'))).
        rewrite (energy_insert (cfb_try wrap x (at_ j) (sPos s (at_ (j - 1))) len b') Q pos j q);
          [|lia|left; cbn [cfb_try sCells]; by rewrite E1|done| | |]; [|cbn [cfb_try sPos]..|].
        + cbn [obind]. change (sTy (cfb_try wrap x (at_ j) (sPos s (at_ (j - 1))) len b')) with (sTy x).
          destruct (IH (cfb_try wrap x (at_ j) (sPos s (at_ (j - 1))) len b', l0 ++ [(sPos (cfb_try wrap x (at_ j) (sPos s (at_ (j - 1))) len b') (at_ j),
               insertion dist2 sep masked u ang ext A c pos (sTy x) j q)], W + boltzmann beta (insertion dist2 sep masked u ang ext A c pos (sTy x) j q)))
            as (s' & l & -> & H1 & H2 & H3 & H4); cbn [fst snd cfb_try sCells sTy sPos].
          * intros q' Hq'. apply Hpr. unfold trials. cbn [map]. by right.
          * done.
          * done.
          * intros a Ha. by rewrite move_ne, E3.
          * rewrite move_eq, Hs by done. fold q. eexists s', ((q, _) :: l). split; [|split; [|done]].
            -- f_equal. f_equal; [f_equal; by rewrite <- app_assoc|]. unfold trials at 2. cbn [map]. rewrite sum_cons. fold q. unfold f at 2, boltzmann. rewrite E2. unfold trials. ring.
            -- cbn [map fst]. rewrite H1. done.
        + intros a Ha. rewrite move_ne; [rewrite E3; [by apply Hs|]|]; intros ->; apply rem_chain in Ha; lia.
        + rewrite move_eq. by rewrite Hs.
        + apply Hpr. unfold trials. cbn [map]. left. }
    cbv zeta in Loop. destruct (Loop bs (s, [], 0)) as (s' & l & -> & H1 & H2 & H3 & H4); [done..|]. cbn [obind fst snd app].
    assert (exists x, l !! k = Some x /\ x.1 = wrap (vadd (pos (at_ (j - 1))) (vscale len b))) as (x & Hx & Ex).
    { assert (map fst l !! k = Some (wrap (vadd (pos (at_ (j - 1))) (vscale len b)))) as E.
      { rewrite H1. unfold trials. rewrite list_lookup_fmap, Hk. done. }
      rewrite list_lookup_fmap in E. destruct (l !! k) as [x|]; [|done]. injection E as E. eauto. }
    unfold aget. rewrite Hx. cbn [obind]. eexists _, _. split.
    - unfold rosenbluth. rewrite Rplus_0_l. reflexivity.
    - cbn [sCells sTy sPos]. split; [done|]. split; [done|]. split; [by rewrite move_eq|]. intros a Ha. rewrite move_ne by done. by apply H4.
  Qed.

  Lemma Rprod_snoc l x : Rprod (l ++ [x]) = Rprod l * x.
  Proof. induction l as [|y l IH]; cbn; [ring|]. unfold Rprod in IH. rewrite IH. ring. Qed.
  Lemma drop_out j b : (j < length c)%nat -> b ∉ drop (S j) c -> b <> at_ j -> b ∉ drop j c.
  Proof. intros Hj H1 H2. rewrite (drop_S c (at_ j) j) by (by apply nth_in). rewrite elem_of_cons. tauto. Qed.
  Lemma aget_nth i : (i < length c)%nat -> aget c i = Ok (at_ i).
  Proof. intros Hi. unfold aget. by rewrite (nth_in c i). Qed.

  Lemma del_phase ts dels s0 r : length ts = (length c - 1)%nat -> (r < length c)%nat -> (jmin <= length c - r)%nat -> hold A (sCells s0) (sPos s0) ->
    (forall i q, (i < r)%nat -> q ∈ old_trials (sPos s0) dels i -> primary (toGen q)) -> forall k, (k <= r)%nat ->
    exists s', foldM (cfb_del M toGen dist2 wrap sep masked u ang ext vb beta c ts true dels) (s0, 1) (seq 0 k) =
        Ok (s', Rprod (map (fun i => rosen (sPos s0) (sTy s0) (length c - 1 - i) (old_trials (sPos s0) dels i)) (seq 0 k))) /\
      hold (rem (length c - k)) (sCells s') (sPos s0) /\ sTy s' = sTy s0 /\ forall b, b ∉ drop (length c - k) c -> sPos s' b = sPos s0 b.
  Proof.
    intros Hts Hr Hjr Hh Hpr. induction k as [|k IH]; intros Hk.
    { exists s0. cbn [seq foldM map]. rewrite Nat.sub_0_r, rem_full. done. }
    destruct (IH ltac:(lia)) as (s1 & E & Hh1 & Hty & Hpos). clear IH.
    rewrite seq_S, foldM_app, E, map_app. cbn [obind map foldM]. rewrite Rprod_snoc. cbn [Nat.add].
    set (j := (length c - 1 - k)%nat). assert (length c - k = S j)%nat as Ej by (unfold j; lia). assert (length c - S k = j)%nat as Ej' by (unfold j; lia).
    rewrite Ej in Hh1, Hpos. rewrite Ej'. assert (jmin <= j < length c)%nat as Hj by (unfold j; lia).
    destruct (pivot_rem j ltac:(lia)) as [Hpv Hpe].
    assert (forall b, b ∈ rem (S j) -> sPos s1 b = sPos s0 b) as Hrem.
    { intros b [_ Hb]%rem_mem. by apply Hpos. }
    assert (at_ j ∈ rem (S j)) as He by (apply rem_chain; lia). assert (at_ (j - 1) ∈ rem (S j)) as Hp by (apply rem_chain; lia).
    destruct (lookup_lt_is_Some_2 ts (length c - 1 - 1 - k)%nat ltac:(lia)) as [t Ht].
    unfold cfb_del at 1. cbn [fst snd del_ids bond_id]. fold j. rewrite (aget_nth j), (aget_nth (j - 1)) by lia. cbn [obind]. unfold aget. rewrite Ht. cbn [obind].
    assert (hold (rem (S j)) (sCells s1) (sPos s1)) as Hh1'. { eapply holding_ext; [exact Hh1|]. intros a Ha. by rewrite Hrem. }
    assert (tri (sPos s1) j (sqrt (dist2 (sPos s1 (at_ (j - 1))) (sPos s1 (at_ j)))) (dels k) =
            tri (sPos s0) j (sqrt (dist2 (sPos s0 (at_ (j - 1))) (sPos s0 (at_ j)))) (dels k)) as Et.
    { unfold trials. by rewrite !Hrem by done. }
    destruct (delete_ok s1 j t (dels k) Hj Hh1') as (s2 & en & -> & Ec & Ety & Ep).
    { intros q Hq. rewrite Et in Hq. apply (Hpr k); [lia|]. unfold CfbSpec.old_trials. fold j. by right. }
    cbn [obind]. rewrite Ec. destruct (holding_delete M cap HM toGen lens cut n HL Hc HG (rem (S j)) (rem j) _ _ (at_ j) Hh1 He) as (l' & -> & Hl').
    { intros b. rewrite rem_S by lia. split; [|tauto]. intros Hb. split; [by left|]. intros ->. apply rem_chain in Hb; lia. }
    cbn [obind]. exists (MC (sPos s2) (sTy s2) l'). cbn [sPos sTy sCells]. split_and!.
    - f_equal. f_equal. f_equal. rewrite Et, Hty, Hrem by done. unfold CfbSpec.old_trials. fold j. apply rosen_ext; [|lia]. intros a Ha. apply Hrem. apply rem_S; [lia|by left].
    - done.
    - congruence.
    - intros b Hb. rewrite (drop_S c (at_ j) j) in Hb by (apply nth_in; lia). rewrite elem_of_cons in Hb. rewrite Ep by tauto. apply Hpos. tauto.
  Qed.

  Lemma crowd_sub S Q Q' : S ⊆ A -> (forall a, a ∈ S -> Q a = Q' a) -> crowded toGen n (M - 1) S Q -> crowded toGen n (M - 1) A Q'.
  Proof.
    intros HS E (cc & ks & K1 & K2 & K3 & K4). exists cc, ks. split_and!; [done|intros a Ha; by apply HS, K2| |done].
    intros a Ha. rewrite <- E by (by apply K2). by apply K3.
  Qed.

  Lemma add_phase ts used adds s1 r new : length ts = (length c - 1)%nat -> (r < length c)%nat -> (jmin <= length c - r)%nat ->
    (forall i, (i < r)%nat -> ts !! (length c - 2 - i)%nat = Some (used i)) ->
    regrown wrap c used r adds (sPos s1) new -> hold (rem (length c - r)) (sCells s1) new -> (forall a, a ∈ A -> (a < cap)%nat) ->
    (forall i q, (i < r)%nat -> q ∈ new_trials used r adds new i -> primary (toGen q)) -> ~ crowded toGen n (M - 1) A new -> forall k, (k <= r)%nat ->
    exists s', foldM (cfb_add M toGen dist2 wrap sep masked u ang ext vb beta c ts r true adds) (s1, 1) (seq 0 k) =
        Ok (s', Rprod (map (fun i => rosen new (sTy s1) (length c - r + i) (new_trials used r adds new i)) (seq 0 k))) /\
      hold (rem (length c - r + k)) (sCells s') new /\ sTy s' = sTy s1 /\ forall b, b ∉ drop (length c - r + k) c -> sPos s' b = new b.
  Proof.
    intros Hts Hr Hjr Htypes [Hout Hgrow] Hh Hcap Hpr Hcr. induction k as [|k IH]; intros Hk.
    { exists s1. cbn [seq foldM map]. rewrite Nat.add_0_r. split_and!; [done|done|done|]. intros b Hb. symmetry. by apply Hout. }
    destruct (IH ltac:(lia)) as (s2 & E & Hh1 & Hty & Hpos). clear IH.
    rewrite seq_S, foldM_app, E, map_app. cbn [obind map foldM]. rewrite Rprod_snoc. cbn [Nat.add].
    set (j := (length c - r + k)%nat) in *. replace (length c - r + S k)%nat with (S j) by (unfold j; lia).
    assert (jmin <= j < length c)%nat as Hj by (unfold j; lia). destruct (pivot_rem j ltac:(lia)) as [Hpv Hpe].
    destruct (Hgrow k ltac:(lia)) as (b & Hb & Hnew). fold j in Hnew. set (t := used k) in *.
    assert (forall a, a ∈ rem j -> sPos s2 a = new a) as Hrem. { intros a [_ Ha]%rem_mem. by apply Hpos. }
    assert (at_ j ∈ rem (S j)) as He by (apply rem_chain; lia).
    unfold cfb_add at 1. cbn [fst snd add_ids bond_id]. fold j. rewrite (aget_nth j), (aget_nth (j - 1)) by lia. cbn [obind].
    replace (aget ts (length c - 1 - 1 - k)) with (Ok t); [|unfold aget; replace (length c - 1 - 1 - k)%nat with (length c - 2 - k)%nat by lia; by rewrite Htypes by lia].
    cbn [obind].
    assert (new_trials used r adds new k = tri new j ((adds k).1.1 t) (adds k).1.2) as Ent. { done. }
    destruct (add_ok s2 new new j t (adds k).1.1 (adds k).1.2 (adds k).2 b Hj Hh1) as (s3 & en & -> & Ec & Ety & Epe & Ep); [done|done| |done|].
    { intros q Hq. apply (Hpr k); [lia|]. by rewrite Ent. }
    cbn [obind]. rewrite Ec, Epe, <- Hnew.
    assert (forall a, move new (at_ j) (new (at_ j)) a = new a) as Emv. { intros a. unfold move. case_decide; congruence. }
    destruct (holding_add M cap HM toGen lens cut n HL Hc HG (rem (S j)) (rem j) (sCells s2) new (at_ j) (new (at_ j)) Hh1) as (l' & -> & Hl').
    - rewrite rem_chain by lia. lia.
    - intros a. apply rem_S. lia.
    - apply Hcap, HcA, nth_elem. lia.
    - apply (Hpr k); [lia|]. rewrite Ent, Hnew. unfold trials. apply elem_of_list_fmap. exists b. split; [done|]. by eapply elem_of_list_lookup_2.
    - intros Hx. apply Hcr. eapply crowd_sub; [|  |exact Hx]; [|intros; by rewrite Emv]. intros a. rewrite rem_mem. tauto.
    - cbn [obind]. exists (MC (sPos s3) (sTy s3) l'). cbn [sPos sTy sCells]. split_and!.
      + f_equal. f_equal. f_equal. by rewrite Ent, Hty.
      + eapply holding_ext; [exact Hl'|]. intros a _. apply Emv.
      + congruence.
      + intros a Ha. destruct (decide (a = at_ j)) as [->|Hne]; [congruence|]. rewrite Ep by done. apply Hpos. by apply drop_out; [lia|..].
  Qed.

  (** There is such a configuration. *)
  Lemma regrown_some used r adds old : (r < length c)%nat ->
    (forall i, (i < r)%nat -> ((adds i).2 < length (adds i).1.2)%nat) -> exists new, regrown wrap c used r adds old new.
  Proof.
    intros Hr Had.
    cut (forall k, (k <= r)%nat -> exists new, (forall a, a ∉ drop (length c - r) c -> new a = old a) /\
      forall i, (i < k)%nat -> let j := (length c - r + i)%nat in
      exists b, (adds i).1.2 !! (adds i).2 = Some b /\
        new (at_ j) = wrap (vadd (new (at_ (j - 1))) (vscale ((adds i).1.1 (used i)) b))).
    { intros X. destruct (X r ltac:(lia)) as (new & ?). by exists new. }
    induction k as [|k IH]; intros Hk; [exists old; split; [done|intros; lia]|].
    destruct (IH ltac:(lia)) as (new & H1 & H2). set (j := (length c - r + k)%nat).
    destruct (lookup_lt_is_Some_2 _ _ (Had k ltac:(lia))) as [b Hb].
    exists (move new (at_ j) (wrap (vadd (new (at_ (j - 1))) (vscale ((adds k).1.1 (used k)) b)))). split.
    - intros a Ha. rewrite move_ne; [by apply H1|]. intros ->. apply Ha. apply elem_drop; [done|unfold j; lia..].
    - intros i Hi. destruct (decide (i = k)) as [->|Hne].
      + fold j. exists b. split; [done|]. rewrite move_eq. rewrite move_ne; [done|]. intros E. apply nth_inj in E; try done; unfold j in *; lia.
      + destruct (H2 i ltac:(lia)) as (b' & E2 & E3). exists b'. split; [done|].
        rewrite !move_ne; [done|..]; intros E; apply nth_inj in E; try done; unfold j in *; lia.
  Qed.

  Lemma old_list s r : (r < length c)%nat ->
    foldM (fun acc i => let? e := aget c (add_ids true (length c) r i).1 in Ok (acc ++ [(e, sPos s e)])) [] (seq 0 r) =
      Ok (zip (drop (length c - r) c) (map (sPos s) (drop (length c - r) c))).
  Proof.
    intros Hr. cut (forall k, (k <= r)%nat -> foldM (fun acc i => let? e := aget c (add_ids true (length c) r i).1 in Ok (acc ++ [(e, sPos s e)])) [] (seq 0 k) =
      Ok (map (fun a => (a, sPos s a)) (take k (drop (length c - r) c)))).
    { intros X. rewrite X by done. f_equal. rewrite take_ge by (rewrite drop_length; lia). generalize (drop (length c - r) c). clear.
      induction l as [|x l IH]; [done|]. cbn [map zip zip_with]. f_equal. exact IH. }
    induction k as [|k IH]; intros Hk; [done|]. rewrite seq_S, foldM_app, IH by lia. cbn [obind foldM Nat.add add_ids fst].
    rewrite (aget_nth (length c - r + k)) by lia. cbn [obind]. f_equal.
    rewrite (take_S_r _ _ (at_ (length c - r + k))); [by rewrite map_app|]. rewrite lookup_drop. apply nth_in. lia.
  Qed.

  Lemma end_gen ts used r dels adds z s0 : length ts = (length c - 1)%nat -> (r < length c)%nat -> (jmin <= length c - r)%nat ->
    (forall i, (i < r)%nat -> ts !! (length c - 2 - i)%nat = Some (used i)) ->
    (forall i, (i < r)%nat -> ((adds i).2 < length (adds i).1.2)%nat) ->
    hold A (sCells s0) (sPos s0) ->
    (forall i q, (i < r)%nat -> q ∈ old_trials (sPos s0) dels i -> primary (toGen q)) ->
    (forall new i q, regrown wrap c used r adds (sPos s0) new -> (i < r)%nat -> q ∈ new_trials used r adds new i -> primary (toGen q)) ->
    (forall new k, regrown wrap c used r adds (sPos s0) new -> (k <= r)%nat -> ~ crowded toGen n (M - 1) A (midway (drop (length c - r) c) k (sPos s0) new)) ->
    exists new s', regrown wrap c used r adds (sPos s0) new /\
      let ratio := Rprod (map (fun i => rosen new (sTy s0) (length c - r + i) (new_trials used r adds new i)) (seq 0 r)) /
                   Rprod (map (fun i => rosen (sPos s0) (sTy s0) (length c - 1 - i) (old_trials (sPos s0) dels i)) (seq 0 r)) in
      let acc := metropolis ratio z in
      cfb_end_move M toGen dist2 wrap sep masked u ang ext vb beta c ts r true dels adds z s0 = Ok (ratio, s', acc) /\
      (forall b, sPos s' b = (if acc then new else sPos s0) b) /\ sTy s' = sTy s0 /\ hold A (sCells s') (sPos s').
  Proof.
    intros Hts Hr Hjr Htypes Had Hh Hp1 Hp2 Hcr. destruct (regrown_some used r adds (sPos s0) Hr Had) as (new & Hnew). exists new.
    unfold cfb_end_move. rewrite decide_False by lia. rewrite old_list by done. cbn [obind].
    destruct (del_phase ts dels s0 r Hts Hr Hjr Hh Hp1 r ltac:(lia)) as (s1 & -> & Hh1 & Hty1 & Hpos1). cbn [obind].
    pose proof Hnew as [Hout _].
    assert (regrown wrap c used r adds (sPos s1) new) as Hnew1. { destruct Hnew as [H1 H2]. split; [|done]. intros a Ha. rewrite Hpos1 by done. by apply H1. }
    assert (forall a, a ∈ A -> (a < cap)%nat) as Hcap. { intros a. by apply (holding_cap M cap HM toGen lens cut n HL Hc HG A _ _ a Hh). }
    set (seg := drop (length c - r) c). assert (length seg = r) as Hseg by (unfold seg; rewrite drop_length; lia).
    assert (forall b, midway seg 0 (sPos s0) new b = new b) as Em0. { intros b. unfold midway. cbn [firstn]. by rewrite decide_False by apply not_elem_of_nil. }
    assert (~ crowded toGen n (M - 1) A new) as Hcrn. { intros Hx. apply (Hcr new 0%nat Hnew ltac:(lia)). eapply (crowd_sub A); [done| |exact Hx]. intros b _. symmetry. apply Em0. }
    assert (hold (rem (length c - r)) (sCells s1) new) as Hh1'.
    { eapply holding_ext; [exact Hh1|]. intros a [_ Ha]%rem_mem. symmetry. by apply Hout. }
    destruct (add_phase ts used adds s1 r new Hts Hr Hjr Htypes Hnew1 Hh1' Hcap (fun i q => Hp2 new i q Hnew) Hcrn r ltac:(lia)) as (s2 & -> & Hh2 & Hty2 & Hpos2).
    replace (length c - r + r)%nat with (length c) in * by lia. rewrite rem_full in Hh2. rewrite drop_all in Hpos2.
    assert (forall b, sPos s2 b = new b) as Hpos2' by (intros b; apply Hpos2, not_elem_of_nil). clear Hpos2.
    cbn [obind]. rewrite Hty1. cbv zeta. destruct (metropolis _ z).
    - exists s2. split; [done|]. split_and!; [done|done|congruence|]. eapply holding_ext; [exact Hh2|]. intros a _. by rewrite Hpos2'.
    - assert (seg ⊆ A) as HsA. { intros a Ha. apply HcA. unfold seg in Ha. apply elem_of_list_lookup in Ha as [i Hi]. rewrite lookup_drop in Hi. by eapply elem_of_list_lookup_2. }
      destruct (place_fold M cap HM toGen wrap lens n cut (fun a => a) A HL Hc HG (sPos s0) seg HsA ltac:(apply (NoDup_drop_aux c _ Hcd)) seg [] s2 new) as (s3 & -> & E1 & E2 & E3).
      + done.
      + intros b Hb. apply (holding_prim M cap HM toGen lens cut n A HL Hc HG _ _ b Hh). by apply HsA.
      + intros k Hk. rewrite Hseg in Hk. by apply Hcr.
      + cbn [length]. eapply holding_ext; [exact Hh2|]. intros a _. symmetry. apply Em0.
      + intros b. cbn [length]. rewrite Hpos2'. symmetry. apply Em0.
      + cbn [obind]. exists s3. split; [done|]. assert (forall b, sPos s3 b = sPos s0 b) as Ep.
        { intros b. rewrite E1, midway_full. case_decide; [done|]. apply Hout. done. }
        split_and!; [done|done|congruence|]. eapply holding_ext; [exact E3|]. intros a _. by rewrite E1.
  Qed.

  (** With angles and all atoms but the first removed, the pivot of the second has no other neighbour. *)
  Lemma end_null ap ts dels adds z s0 : ang = Some ap -> jmin = 2%nat -> length ts = (length c - 1)%nat -> (2 <= length c)%nat -> hold A (sCells s0) (sPos s0) ->
    (forall i q, (i < length c - 2)%nat -> q ∈ old_trials (sPos s0) dels i -> primary (toGen q)) ->
    cfb_end_move M toGen dist2 wrap sep masked u ang ext vb beta c ts (length c - 1) true dels adds z s0 = UB.
  Proof.
    intros Ea Ej Hts Hl Hh Hpr. unfold cfb_end_move. rewrite decide_False by lia. rewrite old_list by lia. cbn [obind].
    destruct (del_phase ts dels s0 (length c - 2) Hts ltac:(lia) ltac:(lia) Hh Hpr (length c - 2) ltac:(lia)) as (s1 & E & Hh1 & Hty & Hpos).
    replace (seq 0 (length c - 1)) with (seq 0 (S (length c - 2))) by (f_equal; lia). rewrite seq_S, foldM_app, E. cbn [obind foldM Nat.add].
    replace (length c - (length c - 2))%nat with 2%nat in * by lia.
    unfold cfb_del at 1. cbn [del_ids bond_id fst snd]. replace (length c - 1 - (length c - 2))%nat with 1%nat by lia. cbn [Nat.sub].
    rewrite (aget_nth 1), (aget_nth 0) by lia. cbn [obind]. destruct (lookup_lt_is_Some_2 ts (length c - 1 - 1 - (length c - 2))%nat ltac:(lia)) as [t Ht].
    unfold aget. rewrite Ht. cbn [obind]. unfold deleteEndAtom. cbv zeta. unfold cfb_energy.
    assert (forall b, b ∈ rem 2 -> sPos s1 b = sPos s0 b) as Hrem. { intros b [_ Hb]%rem_mem. by apply Hpos. }
    assert (at_ 1 ∈ rem 2) as H1 by (apply rem_chain; lia).
    rewrite (pair_eq s1 (sPos s0) 1).
    - cbn [obind]. rewrite Ea in Hang |- *. destruct Hang as [Hca _]. by rewrite (cfb_angle_second dist2 sep ap A c fw Hca Hcd HcA) by lia.
    - lia.
    - by right.
    - intros b Hb. symmetry. apply Hrem. apply rem_S; [lia|by left].
    - rewrite Hrem by done. by apply (holding_prim M cap HM toGen lens cut n _ HL Hc HG _ _ _ Hh1).
  Qed.
End Steps.
