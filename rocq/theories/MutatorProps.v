(** State occupancies of mutable species (C44). *)
From Verif Require Import Base SpeciesModel SpeciesProofs MutatorModel.
Local Open Scope Z_scope.

(** ** Specification *)
(** The number of molecules in state [st]. *)
Definition count_state (ids : list Z) (st : Z) : Z := Z.of_nat (length (filter (fun x => x = st) ids)).
(** Every state is null or one of the [length occ] states, and each occupancy is the number of molecules. *)
Definition occ_ok (s : mutator) : Prop :=
  (forall m st, mtState s !! m = Some st -> st = -1 \/ 0 <= st < Z.of_nat (length (mtOcc s))) /\
  (forall st n, mtOcc s !! st = Some n -> n = count_state (mtState s) (Z.of_nat st)).

(** ** Proofs *)
Lemma count_insert (l : list Z) m old new st :
  l !! m = Some old ->
  count_state (<[m := new]> l) st
  = count_state l st - (if decide (old = st) then 1 else 0) + (if decide (new = st) then 1 else 0).
Proof.
  intros H. unfold count_state.
  rewrite (insert_take_drop l m new) by (by eapply lookup_lt_Some).
  rewrite <- (take_drop_middle l m old H) at 3.
  rewrite !filter_app, !filter_cons, !app_length.
  repeat case_decide; simpl; lia.
Qed.

Lemma set_state_id_Ok s m st s' :
  set_state_id s m st = Ok s' <->
  exists old, mtState s !! m = Some old /\ 0 <= st < Z.of_nat (length (mtOcc s)) /\
    (old = -1 \/ 0 <= old < Z.of_nat (length (mtOcc s))) /\
    s' = MT (let occ := if decide (old = -1) then mtOcc s
                        else <[Z.to_nat old := (mtOcc s !!! Z.to_nat old) - 1]> (mtOcc s) in
             <[Z.to_nat st := (occ !!! Z.to_nat st) + 1]> occ)
            (<[m := st]> (mtState s)) (mtTypes s).
Proof.
  unfold set_state_id.
  assert (Hget : forall (l : list Z) i, 0 <= i < Z.of_nat (length l) -> zget l i = Ok (l !!! Z.to_nat i)).
  { intros l i Hi. unfold zget. rewrite decide_True by lia. unfold aget.
    destruct (l !! Z.to_nat i) eqn:E; [by erewrite list_lookup_total_correct|].
    apply lookup_ge_None in E. lia. }
  assert (Hset : forall (l : list Z) i v, 0 <= i < Z.of_nat (length l) -> zset l i v = Ok (<[Z.to_nat i := v]> l)).
  { intros l i v Hi. unfold zset. rewrite decide_True by lia. unfold aset. rewrite decide_True by lia. done. }
  assert (Hgb : forall (l : list Z) i, ~ (0 <= i < Z.of_nat (length l)) -> zget l i = UB).
  { intros l i Hi. unfold zget. case_decide; [|done]. unfold aget.
    rewrite lookup_ge_None_2 by lia. done. }
  split.
  - intros H.
    apply obind_Ok in H as ([] & Hc & H). apply obind_Ok in H as (old & Ho & H).
    apply aget_Ok in Ho. apply obind_Ok in H as (occ & Hocc & H). apply obind_Ok in H as (ids & Hids & H).
    apply aset_Ok in Hids as [Hm ->]. apply obind_Ok in H as (n & Hn & H). apply obind_Ok in H as (occ' & Hocc' & H).
    injection H as <-.
    destruct (decide (old = -1)) as [->|Hold].
    + rewrite decide_False in Hocc by lia. injection Hocc as <-.
      assert (Hst : 0 <= st < Z.of_nat (length (mtOcc s))).
      { destruct (decide (0 <= st < Z.of_nat (length (mtOcc s)))); [done|]. rewrite Hgb in Hn by done. done. }
      rewrite Hget in Hn by lia. injection Hn as <-. rewrite Hset in Hocc' by lia. injection Hocc' as <-.
      exists (-1). split; [done|]. split; [done|]. split; [by left|]. by rewrite decide_True.
    + rewrite decide_True in Hocc by lia.
      assert (Ho' : 0 <= old < Z.of_nat (length (mtOcc s))).
      { destruct (decide (0 <= old < Z.of_nat (length (mtOcc s)))); [done|].
        rewrite Hgb in Hocc by done. done. }
      rewrite Hget in Hocc by lia. cbn [obind] in Hocc. rewrite Hset in Hocc by lia. injection Hocc as <-.
      assert (Hst : 0 <= st < Z.of_nat (length (mtOcc s))).
      { destruct (decide (0 <= st < Z.of_nat (length (mtOcc s)))); [done|].
        rewrite Hgb in Hn by (rewrite insert_length; done). done. }
      rewrite Hget in Hn by (rewrite insert_length; lia). injection Hn as <-.
      rewrite Hset in Hocc' by (rewrite insert_length; lia). injection Hocc' as <-.
      exists old. split; [done|]. split; [done|]. split; [by right|]. by rewrite decide_False.
  - intros (old & Ho & Hst & Hold & ->).
    rewrite bool_decide_eq_false_2 by lia. cbn [andb negb check obind].
    unfold aget at 1. rewrite Ho. cbn [obind].
    assert (Hm : (m < length (mtState s))%nat) by (by eapply lookup_lt_Some).
    destruct (decide (old = -1)) as [->|Hne].
    + rewrite (decide_False (P := -1 <> -1)) by lia. cbn [obind]. unfold aset. rewrite decide_True by done.
      cbn [obind]. rewrite Hget by lia. cbn [obind]. rewrite Hset by lia. done.
    + rewrite (decide_True (P := old <> -1)) by done. destruct Hold as [|Hold]; [done|].
      rewrite Hget by lia. cbn [obind]. rewrite Hset by lia. cbn [obind]. unfold aset. rewrite decide_True by done.
      cbn [obind]. rewrite Hget by (rewrite insert_length; lia). cbn [obind].
      rewrite Hset by (rewrite insert_length; lia). done.
Qed.

Lemma insert_total (l : list Z) i j v : (i < length l)%nat -> (<[i := v]> l) !!! j = if decide (i = j) then v else l !!! j.
Proof.
  intros Hi. case_decide; subst.
  - by rewrite list_lookup_total_insert.
  - by rewrite list_lookup_total_insert_ne.
Qed.

Lemma set_state_id_inv s m st s' : occ_ok s -> set_state_id s m st = Ok s' -> occ_ok s'.
Proof.
  intros [H1 H2] H. apply set_state_id_Ok in H as (old & Ho & Hst & Hold & ->).
  assert (Hm : (m < length (mtState s))%nat) by (by eapply lookup_lt_Some).
  set (occ1 := if decide (old = -1) then mtOcc s else <[Z.to_nat old:=mtOcc s !!! Z.to_nat old - 1]> (mtOcc s)).
  assert (Hl : length occ1 = length (mtOcc s)).
  { unfold occ1. destruct (decide (old = -1)); [done|]. by rewrite insert_length. }
  split; cbn [mtOcc mtState].
  - intros m' st'. rewrite insert_length, Hl.
    destruct (decide (m = m')) as [<-|Hne].
    + rewrite list_lookup_insert by done. intros [= <-]. right. done.
    + rewrite list_lookup_insert_ne by done. apply H1.
  - intros st' n Hn.
    assert (Hlt : (st' < length (mtOcc s))%nat).
    { apply lookup_lt_Some in Hn. by rewrite insert_length, Hl in Hn. }
    apply list_lookup_total_correct in Hn. rewrite insert_total in Hn by (rewrite Hl; lia).
    assert (Hb : forall j, (j < length (mtOcc s))%nat -> mtOcc s !!! j = count_state (mtState s) (Z.of_nat j)).
    { intros j Hj. apply H2. by apply list_lookup_lookup_total_lt. }
    assert (Hocc1 : forall j, (j < length (mtOcc s))%nat ->
       occ1 !!! j = count_state (mtState s) (Z.of_nat j) - (if decide (old = Z.of_nat j) then 1 else 0)).
    { intros j Hj. unfold occ1. destruct (decide (old = -1)) as [->|Hne].
      - rewrite decide_False by lia. rewrite Hb by done. lia.
      - destruct Hold as [|Hold]; [done|]. rewrite insert_total by lia.
        destruct (decide (Z.to_nat old = j)) as [E|E].
        + subst j. rewrite Hb by lia. rewrite Z2Nat.id by lia. rewrite decide_True by done. done.
        + rewrite decide_False by lia. rewrite Hb by done. lia. }
    rewrite (count_insert _ _ old) by done. rewrite <- Hn.
    destruct (decide (Z.to_nat st = st')) as [E|E].
    + subst st'. rewrite Hocc1 by lia. rewrite !Z2Nat.id by lia. rewrite (decide_True (P := st = st)) by done. lia.
    + rewrite Hocc1 by lia. rewrite (decide_False (P := st = Z.of_nat st')) by lia. lia.
Qed.

Lemma occ_ok_alloc nM nS types : occ_ok (mt_alloc nM nS types).
Proof.
  split; cbn [mtOcc mtState mt_alloc].
  - intros m st H. apply lookup_replicate in H as [-> _]. by left.
  - intros st n H. apply lookup_replicate in H as [-> _].
    unfold count_state. induction nM as [|nM IH]; [done|]. cbn [replicate]. rewrite filter_cons_False by lia. done.
Qed.

Lemma fill_loop (f : nat -> outcome Z) (v : nat -> Z) (l : list Z) :
  (forall i, (i < length l)%nat -> f i = Ok (v i)) ->
  foldM (fun ts i => let? t := f i in aset ts i t) l (seq 0 (length l)) = Ok (map v (seq 0 (length l))).
Proof.
  intros Hf.
  enough (H : forall n k pre post, length pre = k -> length post = n -> l = l ->
     (forall i, (i < k + n)%nat -> f i = Ok (v i)) ->
     foldM (fun ts i => let? t := f i in aset ts i t) (pre ++ post) (seq k n) = Ok (pre ++ map v (seq k n))).
  { specialize (H (length l) 0%nat [] l eq_refl eq_refl eq_refl Hf). done. }
  intros n. induction n as [|n IH]; intros k pre post Hp Hq _ Hv.
  - destruct post; [|done]. done.
  - destruct post as [|x post]; [done|]. cbn [seq foldM]. rewrite Hv by lia. cbn [obind].
    unfold aset. rewrite decide_True by (rewrite app_length; cbn [length]; lia). cbn [obind].
    rewrite insert_app_r_alt by lia. rewrite Hp, Nat.sub_diag. cbn [insert list_insert].
    replace (pre ++ v k :: post) with ((pre ++ [v k]) ++ post) by (by rewrite <- app_assoc).
    etransitivity; [apply (IH (S k) (pre ++ [v k]) post)|].
    5:{ cbn [map]. by rewrite <- app_assoc. }
    + rewrite app_length; cbn [length]; lia.
    + by injection Hq.
    + done.
    + intros i Hi. apply Hv. lia.
Qed.

(** Operations on one species: setMoleculeState(molecule m, state). *)
Definition hsg_step ids s (o : nat * Z) := hsg_set_state ids s (fst o) (snd o).
Definition lsg_step b0 b1 s (o : nat * Z) := lsg_set_state b0 b1 s (fst o) (snd o).

(** Any history of setMoleculeState calls that does not leave the arrays: the occupancies count. *)
Theorem hsg_occupancy_counts ids nM nS types ops s :
  run (hsg_step ids) (mt_alloc nM nS types) ops = Ok s -> occ_ok s.
Proof.
  apply run_inv; [|apply occ_ok_alloc].
  intros s0 [m st] s1 H0 H. unfold hsg_step, hsg_set_state in H. cbn [fst snd] in H.
  apply obind_Ok in H as (ts & _ & H). apply obind_Ok in H as (ts' & _ & H). apply obind_Ok in H as (al & _ & H).
  eapply set_state_id_inv; [|exact H]. exact H0.
Qed.
Theorem lsg_occupancy_counts b0 b1 nM nS types ops s :
  run (lsg_step b0 b1) (mt_alloc nM nS types) ops = Ok s -> occ_ok s.
Proof.
  apply run_inv; [|apply occ_ok_alloc].
  intros s0 [m st] s1 H0 H. unfold lsg_step, lsg_set_state in H. cbn [fst snd] in H.
  apply obind_Ok in H as (ts & _ & H). apply obind_Ok in H as (ts' & _ & H). apply obind_Ok in H as (al & _ & H).
  eapply set_state_id_inv; [|exact H]. exact H0.
Qed.

(** Histories of valid states of existing molecules complete. *)
Definition op_ok (nM nS : nat) (o : nat * Z) : Prop := (fst o < nM)%nat /\ 0 <= snd o < Z.of_nat nS.
Lemma set_state_id_total nM nS s m st : occ_ok s -> length (mtOcc s) = nS -> length (mtState s) = nM ->
  op_ok nM nS (m, st) ->
  exists s', set_state_id s m st = Ok s' /\ length (mtOcc s') = nS /\ length (mtState s') = nM /\
             mtTypes s' = mtTypes s /\ mtState s' = <[m := st]> (mtState s).
Proof.
  intros [H1 _] Ho Hs [Hm Hst]. cbn [fst snd] in *.
  destruct (mtState s !! m) as [old|] eqn:E; [|apply lookup_ge_None in E; lia].
  eexists. split; [apply set_state_id_Ok; exists old; split; [done|]; split; [lia|]; split; [|reflexivity]|].
  - eapply H1. done.
  - cbn [mtOcc mtState mtTypes]. rewrite !insert_length. split; [|done].
    destruct (decide (old = -1)); rewrite ?insert_length; done.
Qed.

Theorem hsg_history_total a b nM types ops :
  length types = nM -> Forall (op_ok nM 2) ops ->
  exists s, run (hsg_step [a; b]) (mt_alloc nM 2 types) ops = Ok s /\
    (forall m ts, mtTypes s !! m = Some ts -> forall st, mtState s !! m = Some st -> st <> -1 ->
       forall t, t ∈ ts -> t = if decide (st = 0) then a else b).
Proof.
  intros Hl Hops.
  enough (H : forall s0, occ_ok s0 -> length (mtOcc s0) = 2%nat -> length (mtState s0) = nM ->
     length (mtTypes s0) = nM ->
     (forall m ts, mtTypes s0 !! m = Some ts -> forall st, mtState s0 !! m = Some st -> st <> -1 ->
        forall t, t ∈ ts -> t = if decide (st = 0) then a else b) ->
     exists s, run (hsg_step [a; b]) s0 ops = Ok s /\
     (forall m ts, mtTypes s !! m = Some ts -> forall st, mtState s !! m = Some st -> st <> -1 ->
        forall t, t ∈ ts -> t = if decide (st = 0) then a else b)).
  { destruct (H (mt_alloc nM 2 types)) as (s & Hs & Hs').
    - apply occ_ok_alloc.
    - done.
    - cbn. by rewrite replicate_length.
    - done.
    - intros m ts _ st Hst Hne. cbn in Hst. apply lookup_replicate in Hst as [-> _]. done.
    - exists s. done. }
  induction Hops as [|[m st] ops Ho Hops IH]; intros s0 H0 H1 H2 H3 H4.
  { exists s0. split; [done|]. done. }
  destruct Ho as [Hm Hst]. cbn [fst snd] in *.
  cbn [run]. unfold hsg_step at 1, hsg_set_state. cbn [fst snd].
  destruct (mtTypes s0 !! m) as [ts|] eqn:E; [|apply lookup_ge_None in E; lia].
  unfold aget at 1. rewrite E. cbn [obind].
  rewrite (fill_loop (fun _ => zget [a; b] st) (fun _ => if decide (st = 0) then a else b)).
  2:{ intros i _. destruct (decide (st = 0)) as [->|]; [done|]. assert (st = 1) as -> by lia. done. }
  cbn [obind]. unfold aset at 1. rewrite decide_True by lia. cbn [obind].
  destruct (set_state_id_total nM 2 (MT (mtOcc s0) (mtState s0)
     (<[m:=map (fun _ => if decide (st = 0) then a else b) (seq 0 (length ts))]> (mtTypes s0))) m st)
    as (s1 & Hs1 & Ho1 & Hl1 & Ht1 & Hst1); try done.
  rewrite Hs1. cbn [obind]. cbn [mtTypes mtState] in Ht1, Hst1.
  apply IH; [|done|done|by rewrite Ht1, insert_length|].
  - eapply set_state_id_inv; [|exact Hs1]. exact H0.
  - intros m' ts'. rewrite Ht1, Hst1. destruct (decide (m = m')) as [<-|Hne].
    + rewrite !list_lookup_insert by lia. intros [= <-] st' [= <-] _ t Ht.
      apply elem_of_list_fmap in Ht as (? & -> & _). done.
    + rewrite !list_lookup_insert_ne by done. apply H4.
Qed.

(** For LinearSG: after any history of valid states each molecule that has a state has the atom types of that state. *)
Theorem lsg_history_total b0 b1 n nM types ops :
  length b0 = n -> length b1 = n -> length types = nM -> Forall (fun ts => length ts = n) types -> Forall (op_ok nM 2) ops ->
  exists s, run (lsg_step b0 b1) (mt_alloc nM 2 types) ops = Ok s /\
    (forall m ts st, mtTypes s !! m = Some ts -> mtState s !! m = Some st ->
       st = -1 /\ types !! m = Some ts \/ st = 0 /\ ts = b0 \/ st = 1 /\ ts = b1).
Proof.
  intros L0 L1 Hl HF Hops.
  enough (H : forall s0, occ_ok s0 -> length (mtOcc s0) = 2%nat -> length (mtState s0) = nM -> length (mtTypes s0) = nM ->
     (forall m ts st, mtTypes s0 !! m = Some ts -> mtState s0 !! m = Some st ->
       st = -1 /\ types !! m = Some ts \/ st = 0 /\ ts = b0 \/ st = 1 /\ ts = b1) ->
     exists s, run (lsg_step b0 b1) s0 ops = Ok s /\
     (forall m ts st, mtTypes s !! m = Some ts -> mtState s !! m = Some st ->
       st = -1 /\ types !! m = Some ts \/ st = 0 /\ ts = b0 \/ st = 1 /\ ts = b1)).
  { apply H; [apply occ_ok_alloc|done|cbn; by rewrite replicate_length|done|].
    intros m ts st Ht Hst. cbn in Hst. apply lookup_replicate in Hst as [-> _]. by left. }
  induction Hops as [|[m st] ops Ho Hops IH]; intros s0 H0 H1 H2 H3 H4.
  { exists s0. split; [done|]. done. }
  destruct Ho as [Hm Hst]. cbn [fst snd] in *.
  cbn [run]. unfold lsg_step at 1, lsg_set_state. cbn [fst snd].
  destruct (mtTypes s0 !! m) as [ts|] eqn:E; [|apply lookup_ge_None in E; lia].
  unfold aget at 1. rewrite E. cbn [obind].
  set (bs := if decide (st = 0) then b0 else b1). assert (Lb : length bs = n) by (unfold bs; by case_decide).
  assert (Lt : length ts = n).
  { destruct (lookup_lt_is_Some_2 (mtState s0) m ltac:(lia)) as [st0 E0].
    destruct (H4 m ts st0 E E0) as [[_ Hts]|[[_ ->]|[_ ->]]]; [|done|done]. exact (proj1 (Forall_lookup _ _) HF _ _ Hts). }
  rewrite (fill_loop (fun i => aget bs i) (fun i => bs !!! i)).
  2:{ intros i Hi. unfold aget. by rewrite list_lookup_lookup_total_lt by lia. }
  assert (Em : map (fun i => bs !!! i) (seq 0 (length ts)) = bs).
  { rewrite Lt, <- Lb. apply list_eq. intros i. destruct (decide (i < length bs)%nat).
    - rewrite list_lookup_fmap, lookup_seq_lt by done. cbn. by rewrite list_lookup_lookup_total_lt by done.
    - rewrite !lookup_ge_None_2; rewrite ?map_length, ?seq_length; try lia. done. }
  rewrite Em. cbn [obind]. unfold aset at 1. rewrite decide_True by lia. cbn [obind].
  destruct (set_state_id_total nM 2 (MT (mtOcc s0) (mtState s0) (<[m:=bs]> (mtTypes s0))) m st)
    as (s1 & Hs1 & Ho1 & Hl1 & Ht1 & Hst1); try done.
  rewrite Hs1. cbn [obind]. cbn [mtTypes mtState] in Ht1, Hst1.
  apply IH; [|done|done|by rewrite Ht1, insert_length|].
  - eapply set_state_id_inv; [|exact Hs1]. exact H0.
  - intros m' ts' st'. rewrite Ht1, Hst1. destruct (decide (m = m')) as [<-|Hne].
    + rewrite !list_lookup_insert by lia. intros [= <-] [= <-]. right. unfold bs. destruct (decide (st = 0)); [by left|].
      right. split; [lia|done].
    + rewrite !list_lookup_insert_ne by done. apply H4.
Qed.

(** Setting a state back to null is never defined: stateOccupancies_[-1] is incremented. *)
Theorem set_null_state_refuted s m : set_state_id s m (-1) = UB.
Proof.
  unfold set_state_id. rewrite (bool_decide_eq_false_2 (-1 <> -1)) by lia. rewrite andb_false_r. cbn [negb check obind].
  destruct (aget (mtState s) m) as [old| |] eqn:E; cbn [obind]; [|by unfold aget in E; destruct (mtState s !! m)|done].
  apply aget_Ok in E.
  destruct (if decide (old <> -1) then _ else _) as [occ| |] eqn:E2; cbn [obind].
  - unfold aset. rewrite decide_True by (by eapply lookup_lt_Some). cbn [obind]. done.
  - case_decide; [|done]. unfold zget, aget, zset, aset in E2. case_decide; [|done].
    destruct (mtOcc s !! Z.to_nat old); cbn [obind] in E2; [|done]. case_decide; done.
  - done.
Qed.

(** ** Examples *)
Example mutator_ex :
  run (hsg_step [5; 7]) (mt_alloc 3 2 [[-1; -1]; [-1; -1]; [-1; -1]]) [(0%nat, 0); (1%nat, 1); (2%nat, 1); (1%nat, 0)]
  = Ok (MT [2; 1] [0; 0; 1] [[5; 5]; [5; 5]; [7; 7]]).
Proof. reflexivity. Qed.
Example mutator_ex_hyp : Forall (op_ok 3 2) [(0%nat, 0); (1%nat, 1); (2%nat, 1); (1%nat, 0)].
Proof. repeat constructor; cbn; lia. Qed.
Example lsg_ex :
  run (lsg_step [1; 2] [3; 4]) (mt_alloc 2 2 [[-1; -1]; [-1; -1]]) [(0%nat, 1); (1%nat, 0); (0%nat, 0)]
  = Ok (MT [2; 0] [0; 0] [[1; 2]; [1; 2]]).
Proof. reflexivity. Qed.

Print Assumptions hsg_occupancy_counts.
Print Assumptions lsg_occupancy_counts.
Print Assumptions hsg_history_total.
Print Assumptions lsg_history_total.
Print Assumptions set_null_state_refuted.
