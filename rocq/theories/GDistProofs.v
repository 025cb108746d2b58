(** Proofs about the distribution of groups. *)
From Verif Require Import Base Containers Vec3 SpeciesModel SpeciesProofs SimProofs BufferModel DistModel CollModel GDistModel GDistSpec.
Local Open Scope nat_scope.

Definition cnt (s : pstore) (g : pgroup) : nat := n_ptr (gpPtrs (placed s g)).
Definition csum (s : pstore) (l : list pgroup) : nat := sum_list (map (cnt s) l).

Lemma find_ptrs_ok s l : Forall (fun i => (0 <= i < Z.of_nat (psTotal s))%Z) l ->
  find_ptrs s l = Ok (map (fun i => if decide (i ∈ local_ids s) then Some i else None) l).
Proof. induction 1 as [|i l Hi _ IH]; [done|]. cbn [find_ptrs map]. rewrite decide_True by done. cbn [obind]. rewrite IH. done. Qed.
Lemma find_ok s g : Forall (fun i => (0 <= i < Z.of_nat (psTotal s))%Z) (gpAtoms g) -> findGroupLocalAtoms s g = Ok (placed s g, cnt s g).
Proof. intros H. unfold findGroupLocalAtoms. rewrite find_ptrs_ok by done. done. Qed.
Lemma cnt_touches s g : 0 < cnt s g <-> touches s g = true.
Proof.
  unfold cnt, touches, placed. cbn [gpPtrs]. induction (gpAtoms g) as [|i l IH]; [cbn; split; [lia|done]|].
  cbn [map existsb]. unfold n_ptr in *. cbn [List.filter]. case_bool_decide as Hi.
  - rewrite decide_True by done. cbn. split; [done|lia].
  - rewrite decide_False by done. cbn. apply IH.
Qed.
Lemma csum_app s l k : csum s (l ++ k) = csum s l + csum s k.
Proof. unfold csum. rewrite map_app. induction (map (cnt s) l); cbn in *; lia. Qed.
Lemma csum_one s g : csum s [g] = cnt s g.
Proof. unfold csum. cbn. lia. Qed.
Lemma groups_on_app s l k : groups_on s (l ++ k) = groups_on s l ++ groups_on s k.
Proof. unfold groups_on. by rewrite List.filter_app, map_app. Qed.
Lemma groups_on_one s g : groups_on s [g] = if touches s g then [placed s g] else [].
Proof. unfold groups_on. cbn. by destruct (touches s g). Qed.
Lemma groups_on_ids s l i : i ∈ map gpId (groups_on s l) -> i ∈ map gpId l.
Proof.
  unfold groups_on. rewrite map_map. intros Hi. apply elem_of_list_In, in_map_iff in Hi as (g & <- & Hg). apply filter_In in Hg as [Hg _].
  apply elem_of_list_In, in_map_iff. by exists g.
Qed.

Section run.
  Context (N : nat) (b : buffer) (s : pstore) (groups : list pgroup).
  Hypothesis (Hrange : forall g, g ∈ groups -> Forall (fun i => (0 <= i < Z.of_nat (psTotal s))%Z) (gpAtoms g)).
  Hypothesis (Hids : NoDup (map gpId groups)).

  Lemma add_ok l1 g l2 c t : groups = l1 ++ g :: l2 -> (0 <= gpId g < Z.of_nat t)%Z -> pg_add (PGS c t (groups_on s l1)) (placed s g) = Ok (PGS c t (groups_on s l1 ++ [placed s g])).
  Proof.
    intros HE Ht. unfold pg_add. cbn [pgTotal pgGroups gpId placed pgCap]. unfold check. rewrite bool_decide_true by done. cbn [obind].
    rewrite bool_decide_false; [done|]. intros Hin. apply groups_on_ids in Hin.
    pose proof Hids as Hn. rewrite HE, map_app in Hn. apply NoDup_app in Hn as (_ & Hn & _). apply (Hn (gpId g)); [done|]. cbn. by left.
  Qed.
  Lemma master_ok cap c t d :
    gdCap d = cap -> gdSize d = 0 -> gdSent d = 0 -> 0 < cap -> 16 + group_bytes N * Nat.min cap (length groups) <= bCap b ->
    (forall g, g ∈ groups -> (0 <= gpId g < Z.of_nat t)%Z) -> length (groups_on s groups) <= c ->
    exists out blk size, gd_master N b s d (PGS c t []) groups =
      Ok (GD cap size (length groups) (csum s groups) [] (out ++ [(blk, true)]) (PGS c t (groups_on s groups))) /\
      Forall (fun pk => pk.2 = false) out /\ concat (map fst (out ++ [(blk, true)])) = map pg_unpacked groups.
  Proof.
    intros Hcap Hsize Hsent Hc0 Hbuf Ht Hcp. unfold gd_master, gd_setup. unfold check. rewrite bool_decide_false by lia. cbn [negb obind].
    rewrite Hcap, Hsize, Hsent.
    assert (Hrun : forall l2 l1 out blk sent, groups = l1 ++ l2 -> Forall (fun pk => pk.2 = false) out -> concat (map fst out) ++ blk = map pg_unpacked l1 ->
      length blk <= cap -> sent + length blk = length l1 ->
      exists out' blk' sent', foldM (fun d g => let? d := gd_newPtr d in gd_add N b s d g)
          (GD cap (length blk) sent (csum s l1) blk out (PGS c t (groups_on s l1))) l2 =
        Ok (GD cap (length blk') sent' (csum s groups) blk' out' (PGS c t (groups_on s groups))) /\
        Forall (fun pk => pk.2 = false) out' /\ concat (map fst out') ++ blk' = map pg_unpacked groups /\ sent' + length blk' = length groups).
    { induction l2 as [|g l2 IH]; intros l1 out blk sent HE HF HC HL HS.
      - rewrite app_nil_r in HE. subst l1. cbn [foldM]. exists out, blk, sent. done.
      - cbn [foldM]. unfold gd_newPtr at 1. cbn [gdSize gdCap].
        assert (HN : exists out1 blk1 sent1, (let d := if decide (length blk = cap) then
              GD cap 0 (sent + length blk) (csum s l1) [] (out ++ [(blk, false)]) (PGS c t (groups_on s l1))
            else GD cap (length blk) sent (csum s l1) blk out (PGS c t (groups_on s l1)) in
            if decide (gdSize d < gdCap d) then Ok d else UB) =
            Ok (GD cap (length blk1) sent1 (csum s l1) blk1 out1 (PGS c t (groups_on s l1))) /\
            Forall (fun pk => pk.2 = false) out1 /\ concat (map fst out1) ++ blk1 = map pg_unpacked l1 /\ length blk1 < cap /\ sent1 + length blk1 = length l1).
        { destruct (decide (length blk = cap)) as [Hf|Hf]; cbn [gdSize gdCap].
          - rewrite decide_True by done. exists (out ++ [(blk, false)]), [], (sent + length blk). split; [done|].
            split; [by apply Forall_app; split; [|apply Forall_singleton]|]. split; [|cbn; lia].
            rewrite map_app, concat_app. cbn. by rewrite !app_nil_r.
          - rewrite decide_True by lia. exists out, blk, sent. split; [done|]. split; [done|]. split; [done|]. lia. }
        destruct HN as (out1 & blk1 & sent1 & HEQ & HF1 & HC1 & HL1 & HS1). cbn [gdCap gdSize gdSent gdRecv gdBlk gdOut gdStore] in *. rewrite HEQ. cbn [obind].
        assert (Hg : g ∈ groups) by (rewrite HE; apply elem_of_app; right; by left).
        unfold gd_add. rewrite find_ok by (by apply Hrange). cbn [obind gdCap gdSize gdSent gdRecv gdBlk gdOut gdStore].
        assert (Hst : (if decide (0 < cnt s g) then let? _ := pg_new (PGS c t (groups_on s l1)) in let? st := pg_add (PGS c t (groups_on s l1)) (placed s g) in
                         Ok (st, csum s l1 + cnt s g) else Ok (PGS c t (groups_on s l1), csum s l1)) =
                      Ok (PGS c t (groups_on s (l1 ++ [g])), csum s (l1 ++ [g]))).
        { rewrite groups_on_app, csum_app, groups_on_one, csum_one.
          destruct (decide (0 < cnt s g)) as [Hpos|Hz].
          - rewrite (proj1 (cnt_touches s g) Hpos). unfold pg_new. cbn [pgGroups pgCap]. unfold check. rewrite bool_decide_true.
            + cbn [obind]. rewrite (add_ok l1 g l2) by (done || by apply Ht). done.
            + rewrite HE, groups_on_app, app_length in Hcp. change (g :: l2) with ([g] ++ l2) in Hcp. rewrite groups_on_app, groups_on_one in Hcp.
              rewrite (proj1 (cnt_touches s g) Hpos) in Hcp. cbn in Hcp. lia.
          - destruct (touches s g) eqn:Htc; [exfalso; apply Hz; by apply cnt_touches|]. rewrite app_nil_r. do 2 f_equal. lia. }
        rewrite Hst. cbn [obind fst snd].
        assert (Hlen : length (map pg_unpacked l1) = length l1) by apply map_length. rewrite <- HC1, app_length in Hlen.
        rewrite decide_False.
        2:{ assert (S (length blk1) <= Nat.min cap (length groups)) by (rewrite HE, app_length; cbn; lia). nia. }
        destruct (IH (l1 ++ [g]) out1 (blk1 ++ [pg_unpacked g]) sent1) as (out' & blk' & sent' & HR & HF' & HC' & HS').
        + by rewrite <- app_assoc.
        + done.
        + rewrite app_assoc, HC1, map_app. done.
        + rewrite app_length. cbn. lia.
        + rewrite !app_length. cbn. lia.
        + exists out', blk', sent'. split; [|done]. replace (S (length blk1)) with (length (blk1 ++ [pg_unpacked g])) by (rewrite app_length; cbn; lia). exact HR. }
    destruct (Hrun groups [] [] [] 0 eq_refl) as (out & blk & sent & HR & HF & HC & HS); [constructor|done|cbn; lia|done|].
    change (groups_on s []) with (@nil pgroup) in HR. change (csum s []) with 0 in HR. cbn [length] in HR. rewrite HR. cbn [obind gdCap gdSize gdSent gdRecv gdBlk gdOut gdStore].
    exists out, blk, (length blk). rewrite HS. split; [done|]. split; [done|]. rewrite map_app, concat_app. cbn. by rewrite app_nil_r.
  Qed.

  Lemma take_ok c t l2 : forall l1, (exists l3, groups = l1 ++ l2 ++ l3) -> (forall g, g ∈ groups -> (0 <= gpId g < Z.of_nat t)%Z) -> length (groups_on s groups) < c ->
    foldM (gd_take s) (PGS c t (groups_on s l1), csum s l1) (map pg_unpacked l2) = Ok (PGS c t (groups_on s (l1 ++ l2)), csum s (l1 ++ l2)).
  Proof.
    induction l2 as [|g l2 IH]; intros l1 [l3 HE] Ht Hc; cbn [map foldM]; [by rewrite app_nil_r|].
    assert (Hg : g ∈ groups) by (rewrite HE; apply elem_of_app; right; by left).
    assert (Hst : gd_take s (PGS c t (groups_on s l1), csum s l1) (pg_unpacked g) = Ok (PGS c t (groups_on s (l1 ++ [g])), csum s (l1 ++ [g]))).
    { unfold gd_take. cbn [fst snd]. unfold pg_new. cbn [pgGroups pgCap]. unfold check. rewrite bool_decide_true.
      2:{ rewrite HE, groups_on_app, app_length in Hc. lia. }
      cbn [obind]. change (pg_unpacked (pg_unpacked g)) with (pg_unpacked g). rewrite find_ok by (cbn; by apply Hrange). cbn [obind].
      change (placed s (pg_unpacked g)) with (placed s g). change (cnt s (pg_unpacked g)) with (cnt s g).
      rewrite groups_on_app, csum_app, groups_on_one, csum_one.
      destruct (decide (0 < cnt s g)) as [Hpos|Hz].
      - rewrite (proj1 (cnt_touches s g) Hpos). rewrite (add_ok l1 g (l2 ++ l3)) by (done || by apply Ht). done.
      - destruct (touches s g) eqn:Htc; [exfalso; apply Hz; by apply cnt_touches|]. rewrite app_nil_r. do 2 f_equal. lia. }
    rewrite Hst. cbn [obind]. rewrite IH; [by rewrite <- app_assoc| |done|done]. exists l3. rewrite HE. by rewrite <- app_assoc.
  Qed.
  Lemma receive_ok c t out blk : (forall g, g ∈ groups -> (0 <= gpId g < Z.of_nat t)%Z) -> length (groups_on s groups) < c ->
    Forall (fun pk => pk.2 = false) out -> concat (map fst (out ++ [(blk, true)])) = map pg_unpacked groups ->
    gd_receive s (PGS c t [], 0) (out ++ [(blk, true)]) = Ok (Some (PGS c t (groups_on s groups), csum s groups, [])).
  Proof.
    intros Ht Hc.
    assert (HG : forall out l1 l2, groups = l1 ++ l2 -> Forall (fun pk => pk.2 = false) out -> concat (map fst (out ++ [(blk, true)])) = map pg_unpacked l2 ->
      gd_receive s (PGS c t (groups_on s l1), csum s l1) (out ++ [(blk, true)]) = Ok (Some (PGS c t (groups_on s groups), csum s groups, []))).
    { clear out. induction out as [|[l f] out IH]; intros l1 l2 HE HF HC; cbn [app gd_receive].
      - cbn in HC. rewrite app_nil_r in HC. subst blk. rewrite take_ok; [|exists []; by rewrite app_nil_r|done|done]. cbn [obind]. by rewrite <- HE.
      - apply Forall_cons in HF as [Hf HF]. cbn in Hf. subst f. cbn [app map fst concat] in HC.
        symmetry in HC. apply map_eq_app in HC as (l2a & l2b & -> & Ha & Hb). subst l.
        rewrite take_ok; [|exists l2b; done|done|done]. cbn [obind]. apply (IH _ l2b); [by rewrite <- app_assoc|done|done]. }
    intros HF HC. apply (HG out [] groups eq_refl HF HC).
  Qed.
End run.

(** ** Counting *)
Definition own (s : pstore) (i : Z) : bool := bool_decide (i ∈ local_ids s).
Definition b2n (x : bool) : nat := if x then 1 else 0.
Lemma sum_list_cons' x l : sum_list (x :: l) = x + sum_list l.
Proof. done. Qed.
Lemma sum_list_map_plus {A} (f g : A -> nat) l : sum_list (map (fun x => f x + g x) l) = sum_list (map f l) + sum_list (map g l).
Proof. induction l as [|x l IH]; [done|]. cbn [map]. rewrite !sum_list_cons'. lia. Qed.
Lemma sum_exchange {A B} (f : A -> B -> nat) la lb :
  sum_list (map (fun a => sum_list (map (f a) lb)) la) = sum_list (map (fun b => sum_list (map (fun a => f a b) la)) lb).
Proof.
  induction la as [|a la IH].
  - cbn. induction lb as [|y lb IH]; [done|]. cbn [map]. rewrite sum_list_cons', <- IH. done.
  - cbn [map]. rewrite sum_list_cons', IH. clear IH. induction lb as [|y lb IH]; [done|]. cbn [map]. rewrite !sum_list_cons'. lia.
Qed.
Lemma sum_map_ext {A} (f g : A -> nat) l : (forall x, x ∈ l -> f x = g x) -> sum_list (map f l) = sum_list (map g l).
Proof. induction l as [|x l IH]; intros H; [done|]. cbn [map]. rewrite !sum_list_cons', H by (by left). rewrite IH; [done|]. intros y Hy. apply H. by right. Qed.
Lemma sum_map_const {A} (k : nat) (l : list A) : sum_list (map (fun _ => k) l) = length l * k.
Proof. induction l as [|x l IH]; [done|]. cbn [map length]. rewrite sum_list_cons', IH. lia. Qed.
Lemma sum_list_app2 l k : sum_list (l ++ k) = sum_list l + sum_list k.
Proof. induction l as [|x l IH]; [done|]. cbn [app]. rewrite !sum_list_cons'. lia. Qed.

Lemma one_owner ls i : (exists r s, ls !! r = Some s /\ i ∈ local_ids s /\ forall r' s', ls !! r' = Some s' -> i ∈ local_ids s' -> r' = r) ->
  sum_list (map (fun s => b2n (own s i)) ls) = 1.
Proof.
  intros (r & s & Hr & Hi & Hu).
  assert (HZ : forall l, (forall s, s ∈ l -> own s i = false) -> sum_list (map (fun s => b2n (own s i)) l) = 0).
  { intros l H. rewrite (sum_map_ext _ (fun _ => 0)); [rewrite sum_map_const; lia|]. intros x Hx. by rewrite H. }
  rewrite <- (take_drop_middle _ _ _ Hr), map_app, sum_list_app2. cbn [map]. rewrite sum_list_cons'.
  rewrite (HZ (take r ls)), (HZ (drop (S r) ls)).
  - unfold own. rewrite bool_decide_true by done. done.
  - intros x Hx. apply elem_of_list_lookup in Hx as (k & Hk). rewrite lookup_drop in Hk. unfold own. apply bool_decide_false. intros Hin.
    pose proof (Hu _ _ Hk Hin). lia.
  - intros x Hx. apply elem_of_list_lookup in Hx as (k & Hk). apply lookup_take_Some in Hk as [Hk Hlt]. unfold own. apply bool_decide_false. intros Hin.
    pose proof (Hu _ _ Hk Hin). lia.
Qed.
Lemma cnt_own s g : cnt s g = sum_list (map (fun i => b2n (own s i)) (gpAtoms g)).
Proof.
  unfold cnt, placed. cbn [gpPtrs]. induction (gpAtoms g) as [|i l IH]; [done|]. cbn [map]. rewrite sum_list_cons', <- IH. unfold n_ptr, own, b2n. cbn [List.filter].
  case_bool_decide; [rewrite decide_True by done|rewrite decide_False by done]; done.
Qed.
Definition first_own (s : pstore) (g : pgroup) : bool := match gpAtoms g with i :: _ => own s i | [] => false end.
Lemma first_placed s g : first_local (placed s g) = first_own s g.
Proof. unfold first_local, placed, first_own, own. cbn [gpPtrs]. destruct (gpAtoms g) as [|i l]; [done|]. cbn. destruct (decide _); [by rewrite bool_decide_true|by rewrite bool_decide_false]. Qed.
Lemma first_touches s g : first_own s g = true -> touches s g = true.
Proof. unfold first_own, touches. destruct (gpAtoms g) as [|i l]; [done|]. cbn. unfold own. intros ->. done. Qed.
Lemma first_groups_on s l : List.filter first_local (groups_on s l) = map (placed s) (List.filter (first_own s) l).
Proof.
  unfold groups_on. induction l as [|g l IH]; [done|]. cbn [List.filter]. destruct (touches s g) eqn:Ht.
  - cbn [map List.filter]. rewrite first_placed, IH. by destruct (first_own s g).
  - destruct (first_own s g) eqn:Hf; [|done]. apply first_touches in Hf. congruence.
Qed.
Lemma filter_len {A} (f : A -> bool) l : length (List.filter f l) = sum_list (map (fun x => b2n (f x)) l).
Proof. induction l as [|x l IH]; [done|]. cbn [map List.filter]. rewrite sum_list_cons'. destruct (f x); cbn; lia. Qed.

Section counts.
  Context (N : nat) (ls : list pstore) (groups : list pgroup) (HN : 0 < N) (HL : forall g, g ∈ groups -> length (gpAtoms g) = N).
  Context (HO : forall g i, g ∈ groups -> i ∈ gpAtoms g ->
    exists r s, ls !! r = Some s /\ i ∈ local_ids s /\ forall r' s', ls !! r' = Some s' -> i ∈ local_ids s' -> r' = r).
  Lemma total_atoms : sum_list (map (fun s => csum s groups) ls) = length groups * N.
  Proof.
    unfold csum. rewrite sum_exchange. rewrite (sum_map_ext _ (fun _ => N)); [by rewrite sum_map_const|]. intros g Hg.
    rewrite (sum_map_ext _ (fun s => sum_list (map (fun i => b2n (own s i)) (gpAtoms g)))) by (intros s _; apply cnt_own).
    rewrite sum_exchange. rewrite (sum_map_ext _ (fun _ => 1)); [rewrite sum_map_const, HL by done; lia|]. intros i Hi. apply one_owner. by apply (HO g).
  Qed.
  Lemma first_of g : g ∈ groups -> exists i l, gpAtoms g = i :: l.
  Proof. intros Hg. pose proof (HL g Hg). destruct (gpAtoms g) as [|i l]; [cbn in *; lia|]. eauto. Qed.
  Lemma total_groups : sum_list (map (fun s => length (List.filter first_local (groups_on s groups))) ls) = length groups.
  Proof.
    rewrite (sum_map_ext _ (fun s => sum_list (map (fun g => b2n (first_own s g)) groups))).
    2:{ intros s _. by rewrite first_groups_on, map_length, filter_len. }
    rewrite sum_exchange. rewrite (sum_map_ext _ (fun _ => 1)); [rewrite sum_map_const; lia|]. intros g Hg.
    destruct (first_of g Hg) as (i & l & Hi).
    rewrite (sum_map_ext _ (fun s => b2n (own s i))) by (intros s _; unfold first_own; by rewrite Hi).
    apply one_owner. apply (HO g); [done|]. rewrite Hi. by left.
  Qed.
End counts.
Lemma zip_cons2 {A B} (a : A) (b : B) l k : zip (a :: l) (b :: k) = (a, b) :: zip l k.
Proof. done. Qed.
Lemma valid_placed s l : Forall (fun i => (0 <= i < Z.of_nat (psTotal s))%Z) l ->
  valid_ptrs s (zip l (map (fun i => if decide (i ∈ local_ids s) then Some i else None) l)) = Ok (sum_list (map (fun i => b2n (own s i)) l)).
Proof.
  induction 1 as [|i l Hi _ IH]; [done|]. cbn [map]. rewrite zip_cons2. cbn [valid_ptrs]. unfold check at 1. rewrite bool_decide_true by done. cbn [obind].
  rewrite IH. rewrite sum_list_cons'. destruct (decide (i ∈ local_ids s)).
  - assert (own s i = true) as -> by (by apply bool_decide_true). unfold check. rewrite bool_decide_true by done. done.
  - assert (own s i = false) as -> by (by apply bool_decide_false). unfold check. rewrite bool_decide_false by done. done.
Qed.
Lemma valid_store s c t l : (forall g, g ∈ l -> Forall (fun i => (0 <= i < Z.of_nat (psTotal s))%Z) (gpAtoms g)) ->
  pg_valid s (PGS c t (groups_on s l)) = Ok (csum s l).
Proof.
  intros HR. unfold pg_valid. cbn [pgGroups].
  assert (HG : forall n, foldM (fun n g => let? k := valid_ptrs s (zip (gpAtoms g) (gpPtrs g)) in let? _ := check (negb (bool_decide (k = 0))) in Ok (n + k)) n (groups_on s l) = Ok (n + csum s l)); [|apply HG].
  induction l as [|g l IH]; intros n; [cbn; by rewrite Nat.add_0_r|]. change (g :: l) with ([g] ++ l). rewrite groups_on_app, csum_app, groups_on_one, csum_one.
  assert (HR' : forall g, g ∈ l -> Forall (fun i => (0 <= i < Z.of_nat (psTotal s))%Z) (gpAtoms g)) by (intros g' Hg'; apply HR; by right).
  destruct (touches s g) eqn:Ht.
  - cbn [app foldM]. unfold placed at 1 2. cbn [gpAtoms gpPtrs]. rewrite valid_placed by (apply HR; by left). cbn [obind]. rewrite <- cnt_own.
    pose proof (proj2 (cnt_touches s g) Ht). unfold check at 1. rewrite bool_decide_false by lia. cbn [negb obind]. rewrite IH by done. f_equal. lia.
  - cbn [app]. rewrite IH by done. f_equal. assert (cnt s g = 0); [|lia].
    destruct (decide (cnt s g = 0)) as [|Hne]; [done|]. assert (0 < cnt s g) as Hp by lia. apply cnt_touches in Hp. congruence.
Qed.
