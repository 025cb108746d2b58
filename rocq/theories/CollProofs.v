(** Proofs about the collectors. *)
From Verif Require Import Base Containers SpeciesModel SimProofs CollModel.
Local Open Scope nat_scope.

Section collector.
  Context {A : Type} (keep : A -> bool) (sz : A -> nat) (bcap pcap rcap smax : nat).
  Notation kept l := (List.filter keep l).
  (** The blocks made of [l] fit into the buffer. *)
  Definition roomy (l : list A) : Prop :=
    Forall (fun x => sz x <= smax) (kept l) /\ 16 + Nat.min pcap (length (kept l)) * smax <= bcap.

  Lemma fill_ok k bytes l : Forall (fun x => sz x <= smax) (kept l) -> 16 + Nat.min pcap (k + length (kept l)) * smax <= bcap ->
    bytes <= 16 + k * smax -> k <= pcap ->
    exists blk rest, fill keep sz bcap pcap k bytes l = Ok (blk, rest) /\ kept l = blk ++ kept rest /\
      length rest <= length l /\ (k < pcap -> l <> [] -> length rest < length l).
  Proof.
    revert k bytes. induction l as [|x l IH]; intros k bytes Hs Hb Hk Hp; cbn [fill].
    - exists [], []. cbn. split; [done|]. split; [done|]. split; [lia|]. done.
    - destruct (decide (k < pcap)) as [Hlt|Hge].
      + cbn [List.filter] in Hs, Hb |- *. destruct (keep x).
        * apply Forall_cons in Hs as [Hx Hs]. cbn [length] in Hb.
          assert (Hb2 : 16 + (k + 1) * smax <= bcap). { assert (k + 1 <= Nat.min pcap (k + S (length (kept l)))) by lia. nia. }
          rewrite decide_False by nia.
          destruct (IH (S k) (bytes + sz x)) as (blk & rest & HF & HK & HL & _); [done| |nia|lia|].
          { replace (S k + length (kept l)) with (k + S (length (kept l))) by lia. done. }
          rewrite HF. cbn [obind]. exists (x :: blk), rest. split; [done|]. split; [by rewrite HK|]. cbn [length]. split; lia.
        * destruct (IH k bytes) as (blk & rest & HF & HK & HL & _); [done|done|done|done|].
          rewrite HF. exists blk, rest. split; [done|]. split; [done|]. cbn [length]. split; lia.
      + exists [], (x :: l). split; [done|]. split; [done|]. split; [lia|]. lia.
  Qed.
  Lemma roomy_rest l rest blk : roomy l -> kept l = blk ++ kept rest -> roomy rest.
  Proof.
    intros [H1 H2] HE. rewrite HE in H1, H2. apply Forall_app in H1 as [_ H1]. split; [done|]. rewrite app_length in H2.
    assert (Nat.min pcap (length (kept rest)) <= Nat.min pcap (length blk + length (kept rest))) by lia. nia.
  Qed.
  Lemma reply_ok l : 0 < pcap -> roomy l -> exists blk rest, reply keep sz bcap pcap l = Ok (blk, match rest with [] => true | _ => false end, rest) /\
    kept l = blk ++ kept rest /\ (l = [] \/ length rest < length l) /\ (l = [] -> rest = []) /\ roomy rest.
  Proof.
    intros Hp HR. pose proof HR as [H1 H2]. unfold reply.
    destruct (fill_ok 0 16 l H1 H2 ltac:(lia) ltac:(lia)) as (blk & rest & -> & HK & HL & HS). cbn [obind].
    exists blk, rest. split; [done|]. split; [done|]. split; [destruct l; [by left|right; apply HS; done]|].
    split; [intros ->; cbn in HL; by destruct rest; [|cbn in HL; lia]|]. by eapply roomy_rest.
  Qed.

  (** The processors that have not answered completely, first the one whose turn it is. *)
  Record cwf (c : @coll A) (pend : list (list A)) : Prop := {
    w_slaves : cSlaves c = replicate (if cDone c then cSource c else cSource c - 1) None ++ map Some pend;
    w_src : cDone c = false -> 0 < cSource c /\ pend <> [];
    w_zero : cSource c = 0 -> cArr c = [] /\ cBuf c = [];
    w_id : cId c <= length (cArr c);
    w_room : Forall roomy pend }.
  Definition rem (c : @coll A) (pend : list (list A)) : list A := drop (cId c) (cArr c) ++ cBuf c ++ concat (map (fun l => kept l) pend).
  Definition weight (pend : list (list A)) : nat := sum_list (map (fun l => S (length l)) pend).
  Lemma weight_cons l pend : weight (l :: pend) = S (length l) + weight pend.
  Proof. done. Qed.
  Definition cost (c : @coll A) (pend : list (list A)) : nat := weight pend + (if decide (length (cBuf c) = 0) then 0 else 1).

  Lemma ask_ok c i l pend : 0 < pcap -> cSource c = S i -> cSlaves c = replicate i None ++ map Some (l :: pend) -> roomy l -> Forall roomy pend ->
    exists blk done pend', ask keep sz bcap pcap c =
       Ok (Some (Coll (cSource c) blk (cArr c) (cId c) done (cIter c) (replicate (if done then S i else i) None ++ map Some pend'))) /\
      (done = false -> pend' <> []) /\ Forall roomy pend' /\
      concat (map (fun l => kept l) (l :: pend)) = blk ++ concat (map (fun l => kept l) pend') /\ weight pend' < weight (l :: pend) /\
      length pend' + (if done then 1 else 0) = S (length pend).
  Proof.
    intros Hp Hs Hl HR HF. unfold ask. rewrite Hs.
    assert (Hi : cSlaves c !! i = Some (Some l)). { rewrite Hl, lookup_app_r by (rewrite replicate_length; lia). by rewrite replicate_length, Nat.sub_diag. }
    rewrite Hi. destruct (reply_ok l Hp HR) as (blk & rest & -> & HK & HL & HE & HR'). cbn [obind].
    assert (HI : forall o, <[i := o]> (cSlaves c) = replicate i None ++ o :: map Some pend).
    { intros o. rewrite Hl, insert_app_r_alt by (rewrite replicate_length; lia). by rewrite replicate_length, Nat.sub_diag. }
    destruct rest as [|y rest].
    - exists blk, true, pend. rewrite HI. split. { do 3 f_equal. rewrite replicate_S_end, <- app_assoc. done. }
      split; [done|]. split; [done|]. cbn [map concat]. rewrite HK. cbn [List.filter]. rewrite app_nil_r. split; [done|]. rewrite weight_cons. split; lia.
    - exists blk, false, ((y :: rest) :: pend). rewrite HI. split; [done|]. split; [done|]. split; [by apply Forall_cons|].
      split; [cbn [map concat]; rewrite HK; by rewrite <- app_assoc|]. rewrite !weight_cons. destruct HL as [->|HL]; [by specialize (HE eq_refl)|]. split; cbn [length] in *; lia.
  Qed.


  Lemma loop_ok fuel c pend : 0 < pcap -> 0 < rcap -> cwf c pend -> cost c pend < fuel ->
    match rem c pend with
    | [] => exists c', next_loop keep sz bcap pcap rcap fuel c = Ok (Some (None, c')) /\ Forall (fun o => o = None) (cSlaves c') /\
              length (cSlaves c') = length (cSlaves c)
    | x :: l => exists c' pend', next_loop keep sz bcap pcap rcap fuel c = Ok (Some (Some x, c')) /\ cwf c' pend' /\ rem c' pend' = l /\ 0 < cSource c' /\
              weight pend' <= weight pend /\ length (cSlaves c') = length (cSlaves c)
    end.
  Proof.
    intros Hp Hr. revert c pend. induction fuel as [|fuel IH]; intros c pend HW Hc; [lia|]. cbn [next_loop].
    destruct (decide (cId c = length (cArr c))) as [He|He].
    2:{ pose proof (w_id _ _ HW). destruct (lookup_lt_is_Some_2 (cArr c) (cId c) ltac:(lia)) as [x Hx].
        rewrite (aget_Ok' _ _ _ Hx). cbn [obind]. unfold rem. rewrite (drop_S _ _ _ Hx). cbn [app].
        eexists _, pend. split; [reflexivity|]. destruct HW as [W1 W2 W3 W4 W5]. split; [|split; [done|split; [|split; [lia|done]]]].
        - split; cbn [cDone cSource cArr cId cBuf cSlaves]; try done; try lia. 
        - cbn. destruct (decide (cSource c = 0)) as [H0|]; [|lia]. destruct (W3 H0) as [Ha _]. rewrite Ha in Hx. done. }
    assert (Hrem : rem c pend = cBuf c ++ concat (map (fun l => kept l) pend)). { unfold rem. rewrite He, drop_all. done. }
    rewrite Hrem. clear Hrem.
    (* after a block has arrived *)
    assert (HG : forall c1 pend1, cId c1 = length (cArr c1) -> cwf c1 pend1 -> 0 < cSource c1 -> cost c1 pend1 <= fuel ->
              (length (cBuf c1) = 0 -> cost c1 pend1 < fuel) -> weight pend1 <= weight pend -> length (cSlaves c1) = length (cSlaves c) ->
              match cBuf c1 ++ concat (map (fun l => kept l) pend1) with
              | [] => exists c', next_loop keep sz bcap pcap rcap fuel (if decide (0 < length (cBuf c1)) then
                   Coll (cSource c1) (drop rcap (cBuf c1)) (take rcap (cBuf c1)) 0 (cDone c1) (cIter c1) (cSlaves c1) else c1) = Ok (Some (None, c')) /\
                   Forall (fun o => o = None) (cSlaves c') /\ length (cSlaves c') = length (cSlaves c)
              | x :: l => exists c' pend', next_loop keep sz bcap pcap rcap fuel (if decide (0 < length (cBuf c1)) then
                   Coll (cSource c1) (drop rcap (cBuf c1)) (take rcap (cBuf c1)) 0 (cDone c1) (cIter c1) (cSlaves c1) else c1) = Ok (Some (Some x, c')) /\
                   cwf c' pend' /\ rem c' pend' = l /\ 0 < cSource c' /\ weight pend' <= weight pend /\ length (cSlaves c') = length (cSlaves c)
              end).
    { intros c1 pend1 Hid HW1 Hs1 Hc1 Hc1' Hw1 Hl1. destruct (decide (0 < length (cBuf c1))) as [Hb|Hb].
      - destruct fuel as [|fuel']. { unfold cost in Hc1. rewrite decide_False in Hc1 by lia. lia. }
        destruct (cBuf c1) as [|x buf] eqn:HB; [cbn in Hb; lia|]. cbn [app next_loop cId cArr].
        assert (Ht : take rcap (x :: buf) = x :: take (rcap - 1) buf) by (destruct rcap; [lia|cbn; by rewrite Nat.sub_0_r]).
        rewrite Ht. rewrite decide_False by done. cbn [aget lookup list_lookup]. unfold aget. cbn [lookup list_lookup obind cSource cBuf cDone cIter cSlaves].
        destruct HW1 as [W1 W2 W3 W4 W5].
        eexists _, pend1. split; [reflexivity|]. split; [|split; [|split; [done|split; [done|done]]]].
        + split; cbn [cDone cSource cArr cId cBuf cSlaves]; try done; try lia. cbn. lia.
        + unfold rem. cbn [cId cArr cBuf]. rewrite drop_S' || idtac. cbn [drop]. rewrite app_assoc. f_equal.
          assert (Hd : drop rcap (x :: buf) = drop (rcap - 1) buf) by (destruct rcap; [lia|cbn; by rewrite Nat.sub_0_r]). rewrite Hd.
          apply take_drop.
      - assert (HB : cBuf c1 = []) by (destruct (cBuf c1); [done|cbn in Hb; lia]).
        specialize (IH c1 pend1 HW1). rewrite HB in Hc1'. specialize (IH (Hc1' eq_refl)).
        assert (Hr1 : rem c1 pend1 = cBuf c1 ++ concat (map (fun l => kept l) pend1)). { unfold rem. by rewrite Hid, drop_all. }
        rewrite <- Hr1. destruct (rem c1 pend1) as [|x l].
        + destruct IH as (c' & IH1 & IH2 & IH3). exists c'. rewrite Hl1 in IH3. done.
        + destruct IH as (c' & pend' & IH1 & IH2 & IH3 & IH4 & IH5 & IH6). exists c', pend'. split; [done|]. split; [done|]. split; [done|]. split; [done|].
          split; [lia|congruence]. }
    destruct (decide (length (cBuf c) = 0)) as [Hb|Hb].
    - assert (HB : cBuf c = []) by (destruct (cBuf c); done). rewrite HB. cbn [app].
      assert (Hcost : weight pend < S fuel). { unfold cost in Hc. rewrite decide_True in Hc by done. lia. }
      (* a request to the processor whose turn it is *)
      assert (HA : forall c0 i l pend0, pend = l :: pend0 -> cSource c0 = S i -> cSlaves c0 = replicate i None ++ map Some pend -> cId c0 = length (cArr c0) ->
        cSlaves c0 = cSlaves c ->
        match concat (map (fun l => kept l) pend) with
        | [] => exists c', (let? oc := (let? o := ask keep sz bcap pcap c0 in Ok (option_map (fun c => (c, false)) o)) in
             match oc with None => Ok None | Some (c, true) => Ok (Some (None, c)) | Some (c, false) => next_loop keep sz bcap pcap rcap fuel
                (if decide (0 < length (cBuf c)) then Coll (cSource c) (drop rcap (cBuf c)) (take rcap (cBuf c)) 0 (cDone c) (cIter c) (cSlaves c) else c) end)
             = Ok (Some (None, c')) /\ Forall (fun o => o = None) (cSlaves c') /\ length (cSlaves c') = length (cSlaves c)
        | x :: l => exists c' pend', (let? oc := (let? o := ask keep sz bcap pcap c0 in Ok (option_map (fun c => (c, false)) o)) in
             match oc with None => Ok None | Some (c, true) => Ok (Some (None, c)) | Some (c, false) => next_loop keep sz bcap pcap rcap fuel
                (if decide (0 < length (cBuf c)) then Coll (cSource c) (drop rcap (cBuf c)) (take rcap (cBuf c)) 0 (cDone c) (cIter c) (cSlaves c) else c) end)
             = Ok (Some (Some x, c')) /\ cwf c' pend' /\ rem c' pend' = l /\ 0 < cSource c' /\ weight pend' <= weight pend /\ length (cSlaves c') = length (cSlaves c)
        end).
      { intros c0 i l pend0 -> Hs0 Hl0 Hid0 Hsame. pose proof (w_room _ _ HW) as HF. apply Forall_cons in HF as [HF1 HF2].
        destruct (ask_ok c0 i l pend0 Hp Hs0 Hl0 HF1 HF2) as (blk & dn & pend' & HE & Hd & HF' & HK & Hw & Hlen). rewrite HE. cbn [obind option_map].
        rewrite HK. apply (HG (Coll (cSource c0) blk (cArr c0) (cId c0) dn (cIter c0) (replicate (if dn then S i else i) None ++ map Some pend')) pend').
        - done.
        - split; cbn [cDone cSource cArr cId cBuf cSlaves]; try done; try lia.
          + rewrite Hs0. destruct dn; f_equal. f_equal. lia.
          + rewrite Hs0. intros Hdn. split; [lia|by apply Hd].
        - cbn. lia.
        - unfold cost. cbn [cBuf]. destruct (decide _); lia.
        - unfold cost. cbn [cBuf]. intros Hb0. rewrite decide_True by done. lia.
        - lia.
        - cbn [cSlaves]. rewrite <- Hsame, Hl0, !app_length, !replicate_length, !map_length. cbn [length]. destruct dn; lia. }
      destruct (cDone c) eqn:Hdn.
      + pose proof (w_slaves _ _ HW) as Hsl. rewrite Hdn in Hsl. unfold cGrid.
        destruct (decide (S (cSource c) = S (length (cSlaves c)))) as [Hend|Hend].
        * rewrite Hsl, app_length, replicate_length, map_length in Hend. destruct pend as [|l pend0]; [|cbn in Hend; lia].
          cbn [obind]. cbn [map concat]. eexists. split; [reflexivity|]. cbn [cSlaves]. split; [|done]. rewrite Hsl. cbn. rewrite app_nil_r. by apply Forall_replicate.
        * destruct pend as [|l pend0]. { exfalso. apply Hend. rewrite Hsl, app_length, replicate_length, map_length. cbn. lia. }
          apply (HA (Coll (S (cSource c)) (cBuf c) [] 0 false (cIter c) (cSlaves c)) (cSource c) l pend0); done.
      + destruct (w_src _ _ HW Hdn) as [Hs Hne]. destruct pend as [|l pend0]; [done|].
        pose proof (w_slaves _ _ HW) as Hsl. rewrite Hdn in Hsl.
        apply (HA c (cSource c - 1) l pend0); try done. lia.
    - cbn [obind]. apply (HG c pend); try done.
      + destruct (decide (cSource c = 0)) as [H0|]; [|lia]. destruct (w_zero _ _ HW H0) as [_ H1]. by rewrite H1 in Hb.
      + lia.
  Qed.

  (** ** The master's own items *)
  Lemma next_own_ok (l : list A) : match kept l with
    | [] => next_own keep l = None
    | x :: t => exists l', next_own keep l = Some (x, l') /\ kept l' = t
    end.
  Proof.
    induction l as [|x l IH]; [done|]. cbn [List.filter next_own]. destruct (keep x); [|done]. exists l. done.
  Qed.
  (** ** A whole collection *)
  Lemma collect_rest fuel n c pend : 0 < pcap -> 0 < rcap -> cwf c pend -> 0 < cSource c -> weight pend + 1 < fuel -> length (rem c pend) < n ->
    exists c', collect keep sz bcap pcap rcap n fuel c = Ok (Some (rem c pend, c')) /\ Forall (fun o => o = None) (cSlaves c') /\
      length (cSlaves c') = length (cSlaves c).
  Proof.
    intros Hp Hr. revert c pend. induction n as [|n IH]; intros c pend HW Hs Hf Hn; [lia|]. cbn [collect]. unfold nextPtr.
    rewrite decide_False by lia.
    pose proof (loop_ok fuel c pend Hp Hr HW) as HL. feed specialize HL. { unfold cost. destruct (decide _); lia. }
    destruct (rem c pend) as [|x l].
    - destruct HL as (c' & -> & HF & HLen). cbn [obind]. exists c'. done.
    - destruct HL as (c' & pend' & -> & HW' & HR & Hs' & Hw & Hlen). cbn [obind].
      destruct (IH c' pend' HW' Hs') as (c2 & HE & HF & Hlen2); [lia|rewrite HR; cbn in Hn; lia|]. rewrite HE. cbn [obind]. rewrite HR.
      exists c2. split; [done|]. split; [done|]. congruence.
  Qed.
  Lemma collect_all fuel n m ss : 0 < pcap -> 0 < rcap -> Forall roomy ss -> weight ss + 1 < fuel ->
    length (kept m ++ concat (map (fun l => kept l) ss)) < n ->
    exists c c', coll_setup rcap (m :: ss) = Ok c /\ collect keep sz bcap pcap rcap n fuel c = Ok (Some (kept m ++ concat (map (fun l => kept l) ss), c')) /\
      Forall (fun o => o = None) (cSlaves c') /\ length (cSlaves c') = length ss.
  Proof.
    intros Hp Hr HF Hf Hn. eexists. 
    assert (HG : forall n l, length (kept l ++ concat (map (fun l => kept l) ss)) < n ->
      exists c', collect keep sz bcap pcap rcap n fuel (Coll 0 [] [] 0 false l (map Some ss)) = Ok (Some (kept l ++ concat (map (fun l => kept l) ss), c')) /\
      Forall (fun o => o = None) (cSlaves c') /\ length (cSlaves c') = length ss).
    { clear m n Hn. induction n as [|n IH]; intros l Hn; [lia|]. cbn [collect]. unfold nextPtr. cbn [cSource cDone cIter]. rewrite decide_True by done.
      pose proof (next_own_ok l) as HO. destruct (kept l) as [|x t].
      - rewrite HO. cbn [cSlaves app] in *.
        assert (HW : cwf (Coll 0 [] [] 0 true [] (map Some ss)) ss) by (split; cbn; try done; lia).
        pose proof (loop_ok fuel _ ss Hp Hr HW) as HL. feed specialize HL. { unfold cost. cbn [cBuf length]. rewrite decide_True by done. lia. }
        unfold rem in HL at 1. cbn [cId cArr cBuf drop app] in HL.
        destruct (concat (map (fun l => kept l) ss)) as [|x t] eqn:HC.
        + destruct HL as (c' & -> & HF' & HLen). cbn [obind]. exists c'. split; [done|]. split; [done|]. rewrite HLen. cbn. apply map_length.
        + destruct HL as (c' & pend' & -> & HW' & HR & Hs' & Hw & Hlen). cbn [obind].
          destruct (collect_rest fuel n c' pend' Hp Hr HW' Hs') as (c2 & HE & HF2 & Hlen2); [lia|rewrite HR; cbn in Hn; lia|]. rewrite HE. cbn [obind].
          exists c2. rewrite HR. split; [done|]. split; [done|]. rewrite Hlen2, Hlen. cbn. apply map_length.
      - destruct HO as (l' & -> & HK). cbn [obind cBuf cArr cId cSlaves cDone]. 
        destruct (IH l') as (c2 & HE & HF2 & Hlen2); [rewrite HK; cbn in Hn; lia|]. rewrite HE. cbn [obind]. rewrite HK. exists c2. done. }
    destruct (HG n m Hn) as (c' & HE & HF' & Hl). exists c'. split; [|split; [exact HE|done]].
    unfold coll_setup. rewrite bool_decide_false by lia. done.
  Qed.
End collector.
