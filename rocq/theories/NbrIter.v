(** Lemmas about DdMd::PairList::build and PairIterator. *)
From Verif Require Import Base Vec3 SpeciesModel SpeciesProofs NbrModel NbrOffsets NbrPairs.

Section iter.
  Local Open Scope nat_scope.
  Fixpoint sums (k : nat) (L : list (nat * list nat)) : list nat :=
    match L with [] => [] | x :: L => (k + length x.2) :: sums (k + length x.2) L end.
  Definition seconds (L : list (nat * list nat)) : list nat := concat (map snd L).
  Definition nonempty (L : list (nat * list nat)) : list (nat * list nat) := List.filter (fun x => negb (bool_decide (x.2 = []))) L.

  Lemma seconds_app L L' : seconds (L ++ L') = seconds L ++ seconds L'.
  Proof. unfold seconds. by rewrite map_app, concat_app. Qed.
  Lemma seconds_cons x L : seconds (x :: L) = x.2 ++ seconds L.
  Proof. done. Qed.
  Lemma sums_length L : forall k, length (sums k L) = length L.
  Proof. induction L; intros k; simpl; [done|]. by rewrite IHL. Qed.
  Lemma sums_lookup L : forall k x L', sums k (L ++ x :: L') !! length L = Some (k + length (seconds L) + length x.2).
  Proof.
    induction L as [|y L IH]; intros k x L'; simpl.
    - f_equal. lia.
    - rewrite IH, seconds_cons, app_length. f_equal. lia.
  Qed.
  Lemma pairs_nonempty L : pairs_of (nonempty L) = pairs_of L.
  Proof.
    induction L as [|[a bs] L IH]; [done|]. unfold nonempty. cbn [List.filter snd]. destruct (decide (bs = [])) as [->|H].
    - rewrite bool_decide_true by done. simpl. exact IH.
    - rewrite bool_decide_false by done. simpl. f_equal. exact IH.
  Qed.
  Lemma nonempty_Forall L : Forall (fun x => x.2 <> []) (nonempty L).
  Proof.
    apply Forall_forall. intros x H%elem_of_list_In%filter_In. destruct H as [_ H]. apply negb_true_iff, bool_decide_eq_false in H. done.
  Qed.
  Lemma pairs_length L : length (pairs_of L) = length (seconds L).
  Proof. induction L as [|[a bs] L IH]; [done|]. unfold pairs_of in *. simpl. rewrite seconds_cons, !app_length, map_length. simpl. by rewrite IH. Qed.

  Lemma fold_enter L : forall p, fold_left dpl_enter L p =
    DPL (vA1 p ++ map fst (nonempty L)) (vA2 p ++ seconds (nonempty L)) (vFirst p ++ sums (length (vA2 p)) (nonempty L)) (vCap1 p) (vCap2 p).
  Proof.
    induction L as [|[a bs] L IH]; intros p.
    - simpl. rewrite !app_nil_r. by destruct p.
    - cbn [fold_left]. rewrite IH. unfold dpl_enter. cbn [fst snd]. unfold nonempty. cbn [List.filter snd]. fold (nonempty L).
      destruct (decide (bs = [])) as [->|H].
      + rewrite bool_decide_true by done. done.
      + rewrite bool_decide_false by done. cbn [vA1 vA2 vFirst vCap1 vCap2 negb map fst]. rewrite seconds_cons. cbn [sums snd].
        rewrite <- !app_assoc, app_length. done.
  Qed.

  Definition at_pos (L : list (nat * list nat)) (k1 k2 : nat) : dpiter :=
    DIter (map fst L) (seconds L) (0 :: sums 0 L) (length (map fst L)) (length (seconds L)) k1 k2.
  Lemma loop_from : forall fuel L1 a X Y L2, Y <> [] -> Forall (fun x => x.2 <> []) L2 -> length Y + length (seconds L2) < fuel ->
    dit_loop fuel (at_pos (L1 ++ (a, X ++ Y) :: L2) (length L1) (length (seconds L1) + length X)) =
    Ok (Some (map (pair a) Y ++ pairs_of L2, at_pos (L1 ++ (a, X ++ Y) :: L2) (length (L1 ++ (a, X ++ Y) :: L2)) (length (seconds (L1 ++ (a, X ++ Y) :: L2))))).
  Proof.
    induction fuel as [|fuel IH]; intros L1 a X Y L2 HY HL Hf; [lia|]. destruct Y as [|y Y]; [done|]. clear HY. simpl in Hf.
    set (L := L1 ++ (a, X ++ y :: Y) :: L2).
    assert (length (seconds L) = length (seconds L1) + length X + S (length Y) + length (seconds L2)) as EL.
    { unfold L. rewrite seconds_app, seconds_cons. cbn [snd]. rewrite !app_length. simpl. lia. }
    match goal with |- _ = ?rhs => set (Rh := rhs) end.
    cbn [dit_loop]. unfold dit_end, at_pos. cbn [yI2 yN2]. rewrite bool_decide_false by lia.
    unfold dit_pair. cbn [yA1 yA2 yI1 yI2].
    assert (aget (map fst L) (length L1) = Ok a) as ->.
    { apply aget_Ok. unfold L. rewrite map_app. rewrite lookup_app_r by (rewrite map_length; lia). rewrite map_length, Nat.sub_diag. done. }
    assert (aget (seconds L) (length (seconds L1) + length X) = Ok y) as ->.
    { apply aget_Ok. unfold L. rewrite seconds_app, seconds_cons. cbn [snd]. rewrite lookup_app_r by lia.
      rewrite <- app_assoc. rewrite lookup_app_r by lia.
      assert (length (seconds L1) + length X - length (seconds L1) - length X = 0) as -> by lia. done. }
    cbn [obind]. unfold dit_next. cbn [yI1 yI2 yFirst].
    assert (aget (0 :: sums 0 L) (length L1 + 1) = Ok (length (seconds L1) + (length X + S (length Y)))) as ->.
    { apply aget_Ok. rewrite Nat.add_1_r. simpl. unfold L. rewrite sums_lookup. cbn [snd]. rewrite app_length. simpl. done. }
    cbn [obind yA1 yA2 yFirst yN1 yN2 yI1 yI2].
    destruct Y as [|y' Y].
    - rewrite decide_True by (simpl; lia). destruct L2 as [|[a' bs'] L2].
      + (* last pair *)
        destruct fuel as [|fuel]; [simpl in Hf; lia|]. cbn [dit_loop].
        replace (S (length (seconds L1) + length X)) with (length (seconds L)) by (simpl in EL; lia).
        unfold dit_end. cbn [yI2 yN2]. rewrite bool_decide_true by done. cbn [obind].
        subst Rh. cbn [map app pairs_of flat_map].
        unfold at_pos. do 4 f_equal. unfold L. rewrite app_length. simpl. lia.
      + pose proof (Forall_inv HL) as Hb. cbn [snd] in Hb. apply Forall_inv_tail in HL.
        pose proof (IH (L1 ++ [(a, X ++ [y])]) a' [] bs' L2 Hb HL) as IH'. cbn [app] in IH'.
        rewrite <- app_assoc in IH'. cbn [app] in IH'. fold L in IH'.
        rewrite seconds_cons in Hf. cbn [snd] in Hf. rewrite app_length in Hf. simpl in Hf.
        rewrite seconds_app, seconds_cons in IH'. cbn [snd length] in IH'. rewrite !app_length in IH'. cbn [length] in IH'.
        assert (length (seconds []) = 0) as E0 by done. rewrite ?app_length, E0 in IH'.
        replace (length (seconds L1) + (length X + 1 + 0) + 0) with (S (length (seconds L1) + length X)) in IH' by lia.
        replace (length L1 + 1) with (S (length L1)) in IH' by lia. unfold at_pos in IH' at 1. rewrite IH' by lia. done.
    - rewrite decide_False by (simpl; lia).
      pose proof (IH L1 a (X ++ [y]) (y' :: Y) L2 ltac:(done) HL) as IH'. rewrite <- app_assoc in IH'. cbn [app] in IH'. fold L in IH'.
      rewrite app_length in IH'. cbn [length] in IH'. simpl in Hf.
      replace (length (seconds L1) + (length X + 1)) with (S (length (seconds L1) + length X)) in IH' by lia.
      unfold at_pos in IH' at 1. rewrite IH' by (simpl; lia). done.
  Qed.
  Lemma loop_all L p it fuel : Forall (fun x => x.2 <> []) L -> vA1 p = map fst L -> vA2 p = seconds L -> vFirst p = 0 :: sums 0 L -> length (pairs_of L) < fuel ->
    dit_end it = true -> exists it', dit_loop fuel (dpl_begin p it) = Ok (Some (pairs_of L, it')) /\ dit_end it' = true.
  Proof.
    intros HL E1 E2 E3 Hf Hend. unfold dpl_begin. rewrite E1, E2, E3, map_length. rewrite pairs_length in Hf. destruct L as [|[a bs] L].
    - rewrite decide_True by done. destruct fuel as [|fuel]; [lia|]. exists it. split; [|done]. cbn [dit_loop]. by rewrite Hend.
    - rewrite decide_False by done. pose proof (Forall_inv HL) as Hb. cbn [snd] in Hb. apply Forall_inv_tail in HL.
      rewrite seconds_cons, app_length in Hf. cbn [snd] in Hf.
      pose proof (loop_from fuel [] a [] bs L Hb HL ltac:(lia)) as H. cbn [app length] in H. unfold at_pos in H at 1. rewrite map_length in H.
      simpl Nat.add in H. eexists. split; [exact H|]. unfold dit_end, at_pos. cbn [yI2 yN2]. by rewrite bool_decide_true.
  Qed.
End iter.

(** What PairList::build leaves, whatever the list held before. *)
Lemma dpl_build_spec s rev cutoff r masked p l : wBuilt s = true -> (0 < vCap1 p)%nat -> (0 < vCap2 p)%nat -> dd_primary s rev cutoff r masked = Ok l ->
  exists p', dpl_build s rev cutoff r masked p = Ok p' /\ vA1 p' = map fst (nonempty l) /\ vA2 p' = seconds (nonempty l) /\ vFirst p' = 0%nat :: sums 0 (nonempty l) /\
    (vCap1 p <= vCap1 p')%nat /\ (vCap2 p <= vCap2 p')%nat.
Proof.
  intros HB H1 H2 E. unfold dpl_build. rewrite HB, !bool_decide_true by done. cbn [check obind]. rewrite E. cbn [obind].
  rewrite fold_enter. cbn [vA1 vA2 vFirst vCap1 vCap2 app length].
  match goal with |- exists p', obind ?e _ = _ /\ _ => assert (e = Ok ()) as -> end.
  { destruct (decide _) as [|Hne]; [done|]. rewrite map_length in *. rewrite bool_decide_true by (simpl; rewrite sums_length; lia). cbn [check obind].
    cbn [aget lookup list_lookup obind]. rewrite bool_decide_true by done. cbn [check obind].
    destruct (nonempty l) as [|x L _] eqn:EL using rev_ind; [done|].
    assert (aget (0%nat :: sums 0 (L ++ [x])) (length (L ++ [x])) = Ok (length (seconds (L ++ [x])))) as ->.
    { apply aget_Ok. rewrite app_length, Nat.add_1_r. simpl. rewrite sums_lookup, seconds_app, app_length. unfold seconds at 3. simpl. rewrite app_nil_r. done. }
    cbn [obind]. by rewrite bool_decide_true. }
  cbn [obind]. eexists. split; [reflexivity|]. cbn [vA1 vA2 vFirst vCap1 vCap2]. repeat split; lia.
Qed.
