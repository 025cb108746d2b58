From Verif Require Import Base Containers AtomMapModel AtomMapSpec AtomMapProofs
  AtomStorageModel AtomStorageSpec.
From stdpp Require Import gmap.

Section P.
  Variable choose : list ptr -> nat.
  Variables capA capG total : nat.

  Record sinv (s : storage) : Prop := {
    s_ll : length (lids s) = capA;
    s_lg : length (gids s) = capG;
    s_A : option_list (newA s) ++ aRes s ++ aSet s ≡ₚ seq 0 capA;
    s_G : option_list (newG s) ++ gRes s ++ gSet s ≡ₚ seq 0 capG;
    s_map : minv (st_id s) (smap s) (st_contents s);
    s_len : length (aptrs (smap s)) = total
  }.

  Lemma elem_PL (l : list nat) p : p ∈ (list_to_set (map PL l) : gset ptr) <-> exists n, p = PL n /\ n ∈ l.
  Proof. rewrite elem_of_list_to_set, elem_of_list_fmap. done. Qed.
  Lemma elem_PG (l : list nat) p : p ∈ (list_to_set (map PG l) : gset ptr) <-> exists n, p = PG n /\ n ∈ l.
  Proof. rewrite elem_of_list_to_set, elem_of_list_fmap. done. Qed.

  Lemma PL_in n s : PL n ∈ locals (st_contents s) <-> n ∈ aSet s.
  Proof. simpl. rewrite elem_PL. naive_solver. Qed.
  Lemma PG_in n s : PG n ∈ ghosts (st_contents s) <-> n ∈ gSet s.
  Proof. simpl. rewrite elem_PG. naive_solver. Qed.
  Lemma PL_notin_g n s : PL n ∉ ghosts (st_contents s).
  Proof. simpl. rewrite elem_PG. naive_solver. Qed.
  Lemma PG_notin_l n s : PG n ∉ locals (st_contents s).
  Proof. simpl. rewrite elem_PL. naive_solver. Qed.

  Lemma sinv_nodupA s : sinv s -> NoDup (option_list (newA s) ++ aRes s ++ aSet s).
  Proof. intros I. rewrite (s_A _ I). apply NoDup_seq. Qed.
  Lemma sinv_nodupG s : sinv s -> NoDup (option_list (newG s) ++ gRes s ++ gSet s).
  Proof. intros I. rewrite (s_G _ I). apply NoDup_seq. Qed.

  Lemma sinv_init : sinv (storage_init capA capG total).
  Proof.
    split; simpl; try (by rewrite replicate_length); try (by rewrite app_nil_r).
    apply minv_init.
  Qed.

  (* equality of abstract contents up to permutation of the sets *)
  Lemma contents_eq (la la' lg lg' : list nat) :
    la ≡ₚ la' -> lg ≡ₚ lg' ->
    Contents (list_to_set (map PL la)) (list_to_set (map PG lg)) =
    Contents (list_to_set (map PL la')) (list_to_set (map PG lg')).
  Proof.
    intros HA HG. f_equal; apply set_eq; intros p.
    - rewrite !elem_PL. by setoid_rewrite HA.
    - rewrite !elem_PG. by setoid_rewrite HG.
  Qed.
  Lemma contents_addL n la lg : 
    Contents (list_to_set (map PL (n :: la))) (list_to_set (map PG lg)) =
    Contents ({[PL n]} ∪ list_to_set (map PL la)) (list_to_set (map PG lg)).
  Proof. done. Qed.
  Lemma contents_delL n la : n ∉ la ->
    (list_to_set (map PL (n :: la)) : gset ptr) ∖ {[PL n]} = list_to_set (map PL la).
  Proof.
    intros H. apply set_eq. intros p. rewrite elem_of_difference, elem_of_singleton, !elem_PL.
    setoid_rewrite elem_of_cons. naive_solver.
  Qed.
  Lemma contents_delG n la : n ∉ la ->
    (list_to_set (map PG (n :: la)) : gset ptr) ∖ {[PG n]} = list_to_set (map PG la).
  Proof.
    intros H. apply set_eq. intros p. rewrite elem_of_difference, elem_of_singleton, !elem_PG.
    setoid_rewrite elem_of_cons. naive_solver.
  Qed.

  Lemma seq_lt cap l n : l ≡ₚ seq 0 cap -> n ∈ l -> n < cap.
  Proof. intros H Hn. rewrite H in Hn. apply elem_of_seq in Hn. lia. Qed.

  Definition good {A} (r : res storage A) : Prop :=
    match r with ROk s _ | RThrow s => sinv s | RUB => False end.

  Lemma minv_change s f m c : m = smap s -> c = st_contents s ->
    (forall p, p ∈ locals (st_contents s) ∪ ghosts (st_contents s) -> f p = st_id s p) ->
    minv (st_id s) (smap s) (st_contents s) -> minv f m c.
  Proof. intros -> -> H I. by eapply minv_ext. Qed.

  (* changing the id of a local slot that is not in use *)
  Lemma change_lid s n id : n ∉ aSet s ->
    forall p, p ∈ locals (st_contents s) ∪ ghosts (st_contents s) ->
    match p with PL k => default (-1)%Z (<[n:=id]> (lids s) !! k)
               | PG k => default (-1)%Z (gids s !! k) end = st_id s p.
  Proof.
    intros Hn [k|k] Hp; [|done]. simpl. rewrite list_lookup_insert_ne; [done|].
    intros <-. apply elem_of_union in Hp as [Hp|Hp]; [|by apply PL_notin_g in Hp].
    by apply PL_in in Hp.
  Qed.
  Lemma change_gid s n id : n ∉ gSet s ->
    forall p, p ∈ locals (st_contents s) ∪ ghosts (st_contents s) ->
    match p with PL k => default (-1)%Z (lids s !! k)
               | PG k => default (-1)%Z (<[n:=id]> (gids s) !! k) end = st_id s p.
  Proof.
    intros Hn [k|k] Hp; [done|]. simpl. rewrite list_lookup_insert_ne; [done|].
    intros <-. apply elem_of_union in Hp as [Hp|Hp]; [by apply PG_notin_l in Hp|].
    by apply PG_in in Hp.
  Qed.

  Lemma minv_eq f m c c' : c' = c -> minv f m c -> minv f m c'.
  Proof. by intros ->. Qed.

  Lemma newAtomPtr_good s : sinv s -> good (newAtomPtr s) /\
    (forall s' n, newAtomPtr s = ROk s' n -> sinv s' /\ newA s' = Some n /\ locked s' = false).
  Proof.
    intros I. unfold newAtomPtr. destruct (newA s) eqn:EA; [done|].
    destruct (locked s) eqn:EL; [done|]. destruct (aRes s) as [|n r] eqn:ER; [done|].
    assert (sinv (Storage (<[n := (-1)%Z]> (lids s)) (gids s) (aSet s) r (gSet s) (gRes s)
                         (smap s) (Some n) (newG s) false)) as I'.
    { pose proof (sinv_nodupA _ I) as Hnd. rewrite EA, ER in Hnd. simpl in Hnd.
      apply NoDup_cons in Hnd as [Hn _].
      split; simpl; try apply I.
      - rewrite insert_length. apply I.
      - pose proof (s_A _ I) as H. rewrite EA, ER in H. done.
      - eapply (minv_change s); [done|done| |apply I]. intros p Hp. simpl.
        rewrite <- (change_lid s n (-1)%Z) by (set_solver || done). by destruct p. }
    split; [done|]. intros s' n' [= <- <-]. done.
  Qed.

  Lemma setNewId_good s id : sinv s -> good (setNewId s id).
  Proof.
    intros I. unfold setNewId. destruct (newA s) as [n|] eqn:EA; [|done].
    pose proof (sinv_nodupA _ I) as Hnd. rewrite EA in Hnd. simpl in Hnd.
    apply NoDup_cons in Hnd as [Hn _].
    split; simpl; try apply I.
    - rewrite insert_length. apply I.
    - pose proof (s_A _ I) as H. rewrite EA in H. done.
    - eapply (minv_change s); [done|done| |apply I]. intros p Hp. simpl.
      rewrite <- (change_lid s n id) by (set_solver || done). by destruct p.
  Qed.

  Lemma addNewAtom_good s : sinv s -> good (addNewAtom s).
  Proof.
    intros I. unfold addNewAtom. destruct (newA s) as [n|] eqn:EA; [|done].
    destruct (locked s) eqn:EL; [done|].
    pose proof (sinv_nodupA _ I) as Hnd. rewrite EA in Hnd. simpl in Hnd.
    apply NoDup_cons in Hnd as [Hn _].
    assert (Hn' : n ∉ aSet s) by set_solver.
    destruct (addLocal (st_id s) (smap s) (PL n)) as [m| |] eqn:E; [|done|].
    2:{ unfold addLocal in E. repeat case_match; done. }
    pose proof (map_step_len (st_id s) choose (smap s) (MAddLocal (PL n)) m E) as Hlen.
    apply addLocal_inv with (c := st_contents s) in E; [|apply I|by rewrite PL_in|apply PL_notin_g].
    unfold set_append. rewrite decide_False by done. simpl.
    split; simpl; try apply I.
    - rewrite <- (s_A _ I), EA. simpl. rewrite app_assoc. symmetry. apply Permutation_cons_append.
    - eapply minv_eq; [|exact E].
      apply (contents_eq _ (n :: aSet s)); [symmetry; apply Permutation_cons_append|reflexivity].
    - rewrite Hlen. apply I.
  Qed.

  Lemma addAtom_good s id : sinv s -> good (addAtom s id).
  Proof.
    intros I. unfold addAtom. pose proof (newAtomPtr_good s I) as [H1 H2].
    destruct (newAtomPtr s) as [s1 n|s1|] eqn:E; [|done|done].
    destruct (H2 s1 n eq_refl) as (I1 & _ & _).
    pose proof (setNewId_good s1 id I1) as H3.
    destruct (setNewId s1 id) as [s2 u|s2|] eqn:E2; [|done|done].
    by apply addNewAtom_good.
  Qed.

  Lemma res_lengthA s n : sinv s -> n ∈ aSet s -> length (aRes s) < length (lids s).
  Proof.
    intros I Hn. rewrite (s_ll _ I). pose proof (Permutation_length (s_A _ I)) as H.
    rewrite seq_length, !app_length in H.
    destruct (aSet s); [by apply elem_of_nil in Hn|]. simpl in H. lia.
  Qed.
  Lemma res_lengthG s n : sinv s -> n ∈ gSet s -> length (gRes s) < length (gids s).
  Proof.
    intros I Hn. rewrite (s_lg _ I). pose proof (Permutation_length (s_G _ I)) as H.
    rewrite seq_length, !app_length in H.
    destruct (gSet s); [by apply elem_of_nil in Hn|]. simpl in H. lia.
  Qed.

  Lemma removeAtom_good s n : sinv s -> n < capA -> good (removeAtom choose s n).
  Proof.
    intros I Hn. unfold removeAtom. rewrite decide_True by (rewrite (s_ll _ I); done).
    destruct (removeLocal (st_id s) choose (smap s) (PL n)) as [m| |] eqn:E; [|done|].
    2:{ unfold removeLocal in E. repeat case_match; done. }
    pose proof (map_step_len (st_id s) choose (smap s) (MRemoveLocal (PL n)) m E) as Hlen.
    apply removeLocal_inv with (c := st_contents s) in E as [Hin E]; [|apply I|apply PL_notin_g].
    apply PL_in in Hin.
    destruct (set_remove_Ok _ _ Hin) as [l Hl]. rewrite Hl.
    pose proof (set_remove_perm _ _ _ Hl) as Hperm.
    unfold stack_push. rewrite decide_True by (by eapply res_lengthA).
    assert (Hnl : n ∉ l).
    { pose proof (sinv_nodupA _ I) as Hnd. rewrite <- Hperm in Hnd.
      apply NoDup_app in Hnd as (_ & _ & Hnd). apply NoDup_app in Hnd as (_ & _ & Hnd).
      by apply NoDup_cons in Hnd as [? _]. }
    split; simpl; try apply I.
    - rewrite <- (s_A _ I). f_equiv. rewrite <- Hperm. by rewrite Permutation_middle.
    - eapply minv_eq; [|exact E]. unfold st_contents. simpl. f_equal.
      rewrite <- (contents_delL n l) by done. f_equal. apply set_eq. intros p.
      rewrite !elem_PL. by setoid_rewrite Hperm.
    - rewrite Hlen. apply I.
  Qed.

  Lemma clearAtoms_loop_good k : forall s, sinv s -> length (aSet s) = k ->
    exists s', clearAtoms_loop choose k s = ROk s' tt /\ sinv s' /\ aSet s' = [].
  Proof.
    induction k as [|k IH]; intros s I Hk; simpl.
    - exists s. split; [done|]. split; [done|]. by apply length_zero_iff_nil.
    - destruct (set_pop_Ok (aSet s)) as (n & l & Hp); [by destruct (aSet s)|]. rewrite Hp.
      apply set_pop_perm in Hp as Hl.
      assert (Hin : n ∈ aSet s) by (rewrite Hl; set_solver).
      set (s1 := Storage (lids s) (gids s) l (aRes s) (gSet s) (gRes s) (smap s)
                              (newA s) (newG s) (locked s)).
      destruct (proj2 (removeLocal_Ok_iff (st_id s) choose (smap s) (st_contents s) (PL n)
                 ltac:(apply I) ltac:(apply PL_notin_g)) ltac:(by apply PL_in)) as [m Hm].
      change (st_id s1) with (st_id s). rewrite Hm.
      pose proof (map_step_len (st_id s) choose (smap s) (MRemoveLocal (PL n)) m Hm) as Hlen.
      apply removeLocal_inv with (c := st_contents s) in Hm as [_ E]; [|apply I|apply PL_notin_g].
      unfold stack_push. rewrite decide_True by (by eapply res_lengthA).
      assert (Hperm : n :: l ≡ₚ aSet s) by (rewrite Hl; by rewrite Permutation_cons_append).
      assert (Hnl : n ∉ l).
      { pose proof (sinv_nodupA _ I) as Hnd. rewrite <- Hperm in Hnd.
        apply NoDup_app in Hnd as (_ & _ & Hnd). apply NoDup_app in Hnd as (_ & _ & Hnd).
        by apply NoDup_cons in Hnd as [? _]. }
      apply IH.
      + split; simpl; try apply I.
        * rewrite <- (s_A _ I). f_equiv. rewrite <- Hperm. by rewrite Permutation_middle.
        * eapply minv_eq; [|exact E]. unfold st_contents. simpl. f_equal.
          rewrite <- (contents_delL n l) by done. f_equal. apply set_eq. intros p.
          rewrite !elem_PL. by setoid_rewrite Hperm.
        * rewrite Hlen. apply I.
      + simpl. rewrite Hl, app_length in Hk. simpl in Hk. lia.
  Qed.

  Lemma clearAtoms_ok s : sinv s -> locked s = false ->
    exists s', clearAtoms choose s = ROk s' tt /\ sinv s' /\ aSet s' = [].
  Proof.
    intros I EL. unfold clearAtoms. rewrite EL.
    destruct (clearAtoms_loop_good (length (aSet s)) s I eq_refl) as (s' & -> & I' & H').
    rewrite decide_True by (by rewrite H').
    rewrite decide_True; [eauto|].
    rewrite (m_nl _ _ _ (s_map _ I')). simpl. rewrite H'. done.
  Qed.

  Lemma clearAtoms_good s : sinv s -> good (clearAtoms choose s).
  Proof.
    intros I. destruct (locked s) eqn:EL.
    - unfold clearAtoms. by rewrite EL.
    - destruct (clearAtoms_ok s I EL) as (s' & -> & ? & _). done.
  Qed.

  Lemma newGhostPtr_good s : sinv s -> good (newGhostPtr s) /\
    (forall s' n, newGhostPtr s = ROk s' n -> sinv s' /\ newG s' = Some n /\ locked s' = false).
  Proof.
    intros I. unfold newGhostPtr. destruct (newG s) eqn:EA; [done|].
    destruct (locked s) eqn:EL; [done|]. destruct (gRes s) as [|n r] eqn:ER; [done|].
    assert (sinv (Storage (lids s) (<[n := (-1)%Z]> (gids s)) (aSet s) (aRes s) (gSet s) r
                         (smap s) (newA s) (Some n) false)) as I'.
    { pose proof (sinv_nodupG _ I) as Hnd. rewrite EA, ER in Hnd. simpl in Hnd.
      apply NoDup_cons in Hnd as [Hn _].
      split; simpl; try apply I.
      - rewrite insert_length. apply I.
      - pose proof (s_G _ I) as H. rewrite EA, ER in H. done.
      - eapply (minv_change s); [done|done| |apply I]. intros p Hp. simpl.
        rewrite <- (change_gid s n (-1)%Z) by (set_solver || done). by destruct p. }
    split; [done|]. intros s' n' [= <- <-]. done.
  Qed.

  Lemma setNewGhostId_good s id : sinv s -> good (setNewGhostId s id).
  Proof.
    intros I. unfold setNewGhostId. destruct (newG s) as [n|] eqn:EA; [|done].
    pose proof (sinv_nodupG _ I) as Hnd. rewrite EA in Hnd. simpl in Hnd.
    apply NoDup_cons in Hnd as [Hn _].
    split; simpl; try apply I.
    - rewrite insert_length. apply I.
    - pose proof (s_G _ I) as H. rewrite EA in H. done.
    - eapply (minv_change s); [done|done| |apply I]. intros p Hp. simpl.
      rewrite <- (change_gid s n id) by (set_solver || done). by destruct p.
  Qed.

  Lemma addNewGhost_good s : sinv s -> good (addNewGhost s).
  Proof.
    intros I. unfold addNewGhost. destruct (newG s) as [n|] eqn:EA; [|done].
    destruct (locked s) eqn:EL; [done|].
    pose proof (sinv_nodupG _ I) as Hnd. rewrite EA in Hnd. simpl in Hnd.
    apply NoDup_cons in Hnd as [Hn _].
    assert (Hn' : n ∉ gSet s) by set_solver.
    destruct (addGhost (st_id s) (smap s) (PG n)) as [m| |] eqn:E; [|done|].
    2:{ unfold addGhost in E. repeat case_match; done. }
    pose proof (map_step_len (st_id s) choose (smap s) (MAddGhost (PG n)) m E) as Hlen.
    apply addGhost_inv with (c := st_contents s) in E; [|apply I|apply PG_notin_l|by rewrite PG_in].
    unfold set_append. rewrite decide_False by done. simpl.
    split; simpl; try apply I.
    - rewrite <- (s_G _ I), EA. simpl. rewrite app_assoc. symmetry. apply Permutation_cons_append.
    - eapply minv_eq; [|exact E].
      apply (contents_eq _ _ _ (n :: gSet s)); [reflexivity|symmetry; apply Permutation_cons_append].
    - rewrite Hlen. apply I.
  Qed.

  Lemma addGhostAtom_good s id : sinv s -> good (addGhostAtom s id).
  Proof.
    intros I. unfold addGhostAtom. pose proof (newGhostPtr_good s I) as [H1 H2].
    destruct (newGhostPtr s) as [s1 n|s1|] eqn:E; [|done|done].
    destruct (H2 s1 n eq_refl) as (I1 & _ & _).
    pose proof (setNewGhostId_good s1 id I1) as H3.
    destruct (setNewGhostId s1 id) as [s2 u|s2|] eqn:E2; [|done|done].
    by apply addNewGhost_good.
  Qed.

  Lemma removeGhostAtom_good s n : sinv s -> n < capG -> good (removeGhostAtom choose s n).
  Proof.
    intros I Hn. unfold removeGhostAtom. rewrite decide_True by (rewrite (s_lg _ I); done).
    destruct (locked s) eqn:EL; [done|].
    destruct (removeGhost (st_id s) choose (smap s) (PG n)) as [m| |] eqn:E; [|done|].
    2:{ unfold removeGhost in E. repeat case_match; done. }
    pose proof (map_step_len (st_id s) choose (smap s) (MRemoveGhost (PG n)) m E) as Hlen.
    apply removeGhost_inv with (c := st_contents s) in E as [Hin E]; [|apply I|apply PG_notin_l].
    apply PG_in in Hin.
    destruct (set_remove_Ok _ _ Hin) as [l Hl]. rewrite Hl.
    pose proof (set_remove_perm _ _ _ Hl) as Hperm.
    unfold stack_push. rewrite decide_True by (by eapply res_lengthG).
    assert (Hnl : n ∉ l).
    { pose proof (sinv_nodupG _ I) as Hnd. rewrite <- Hperm in Hnd.
      apply NoDup_app in Hnd as (_ & _ & Hnd). apply NoDup_app in Hnd as (_ & _ & Hnd).
      by apply NoDup_cons in Hnd as [? _]. }
    split; simpl; try apply I.
    - rewrite <- (s_G _ I). f_equiv. rewrite <- Hperm. by rewrite Permutation_middle.
    - eapply minv_eq; [|exact E]. unfold st_contents. simpl. f_equal.
      rewrite <- (contents_delG n l) by done. f_equal. apply set_eq. intros p.
      rewrite !elem_PG. by setoid_rewrite Hperm.
    - rewrite Hlen. apply I.
  Qed.

  Lemma popGhosts_ok k : forall s, length (gSet s) = k -> length (gids s) = capG ->
    option_list (newG s) ++ gRes s ++ gSet s ≡ₚ seq 0 capG ->
    exists s', popGhosts_loop k s = ROk s' tt /\ gSet s' = [] /\
      lids s' = lids s /\ gids s' = gids s /\ aSet s' = aSet s /\ aRes s' = aRes s /\
      smap s' = smap s /\ newA s' = newA s /\ newG s' = newG s /\ locked s' = locked s /\
      option_list (newG s') ++ gRes s' ++ gSet s' ≡ₚ seq 0 capG.
  Proof.
    induction k as [|k IH]; intros s Hk Hlg HG; simpl.
    - exists s. apply length_zero_iff_nil in Hk. naive_solver.
    - destruct (set_pop_Ok (gSet s)) as (n & l & Hp); [by destruct (gSet s)|]. rewrite Hp.
      apply set_pop_perm in Hp as Hl.
      assert (Hperm : n :: l ≡ₚ gSet s) by (rewrite Hl; by rewrite Permutation_cons_append).
      unfold stack_push. rewrite decide_True.
      2:{ pose proof (Permutation_length HG) as H. rewrite seq_length, !app_length in H. lia. }
      destruct (IH (Storage (lids s) (gids s) (aSet s) (aRes s) l (n :: gRes s) (smap s)
                                 (newA s) (newG s) (locked s))) as (s' & Hs' & H').
      + simpl. rewrite Hl, app_length in Hk. simpl in Hk. lia.
      + done.
      + simpl. rewrite <- HG. f_equiv. rewrite <- Hperm. by rewrite Permutation_middle.
      + exists s'. split; [done|]. simpl in H'. done.
  Qed.

  Lemma clearGhostAtoms_ok s : sinv s -> locked s = false ->
    exists s', clearGhostAtoms s = ROk s' tt /\ sinv s' /\ gSet s' = [] /\ aSet s' = aSet s.
  Proof.
    intros I EL. unfold clearGhostAtoms. rewrite EL.
    assert (NoDup (gSet s)) as HndG.
    { pose proof (sinv_nodupG _ I) as Hnd.
      apply NoDup_app in Hnd as (_ & _ & Hnd). by apply NoDup_app in Hnd as (_ & _ & Hnd). }
    destruct (clearGhosts_inv (st_id s) choose (smap s) (st_contents s) (map PG (gSet s)))
      as (m & -> & Im & Hlen).
    - apply I.
    - simpl. rewrite elements_list_to_set; [done|].
      apply NoDup_fmap_2; [|done]. intros ?? [=]. done.
    - destruct (popGhosts_ok (length (gSet s)) (upd_map s m)) as (s' & -> & Hg & H1 & H2 & H3 & H4 & H5 & H6 & H7 & H8 & H9).
      + done.
      + apply I.
      + apply I.
      + simpl in *. rewrite H5. rewrite decide_True by (by rewrite Hg).
        assert (nGhost m = 0%Z) as Hn by (rewrite (m_ng _ _ _ Im); done).
        rewrite decide_True by done.
        assert (nGhD m = 0%Z) as Hd.
        { unfold nGhost in Hn. destruct (gmm m) as [|[k q] l] eqn:Eg; [simpl in Hn; lia|].
          exfalso. pose proof (m_gkey _ _ _ Im k q ltac:(rewrite Eg; left)) as (-> & _).
          assert (q ∈ ghosts (Contents (locals (st_contents s)) ∅)).
          { apply (m_ghost _ _ _ Im). right. rewrite Eg. left. }
          set_solver. }
        rewrite decide_True by done. exists s'. split; [done|]. split; [|done].
        split; try congruence.
        * rewrite H1. apply I.
        * rewrite H2. apply I.
        * rewrite H6, H4, H3. apply I.
        * rewrite H5.
          replace (st_contents s') with (Contents (locals (st_contents s)) ∅)
            by (unfold st_contents; rewrite H3, Hg; done).
          eapply minv_ext; [|exact Im]. intros p _. unfold st_id. by rewrite H1, H2.
        * rewrite H5, Hlen. apply I.
  Qed.

  Lemma clearGhostAtoms_good s : sinv s -> good (clearGhostAtoms s).
  Proof.
    intros I. destruct (locked s) eqn:EL.
    - unfold clearGhostAtoms. by rewrite EL.
    - destruct (clearGhostAtoms_ok s I EL) as (s' & -> & ? & _). done.
  Qed.

  Lemma st_step_good s o : sinv s -> st_op_ok capA capG o -> good (st_step choose s o).
  Proof.
    intros I Ho. destruct o; simpl in *.
    - pose proof (newAtomPtr_good s I) as [H _]. by destruct (newAtomPtr s).
    - by apply setNewId_good.
    - by apply addNewAtom_good.
    - by apply addAtom_good.
    - by apply removeAtom_good.
    - by apply clearAtoms_good.
    - pose proof (newGhostPtr_good s I) as [H _]. by destruct (newGhostPtr s).
    - by apply setNewGhostId_good.
    - by apply addNewGhost_good.
    - by apply addGhostAtom_good.
    - by apply removeGhostAtom_good.
    - by apply clearGhostAtoms_good.
    - split; apply I.
    - split; apply I.
  Qed.

  Lemma st_run_good ops : forall s, sinv s -> Forall (st_op_ok capA capG) ops ->
    exists s', st_run choose s ops = Some s' /\ sinv s'.
  Proof.
    induction ops as [|o ops IH]; intros s I Ho; simpl; [eauto|].
    inversion Ho; subst. pose proof (st_step_good s o I ltac:(done)) as H.
    destruct (st_step choose s o) as [s'|s'|]; simpl in H; [apply IH; done..|done].
  Qed.

  (* the occupied entries of the map *)
  Lemma occupied_count idof m c : minv idof m c ->
    Z.of_nat (length (omap id (aptrs m))) = (nLoc m + nGhD m)%Z.
  Proof.
    intros I.
    assert (Hdisj := m_disj _ _ _ I).
    (* elements of slots ++ elements of multimap = locals ++ ghosts *)
    assert (Hnd1 : NoDup (omap id (aptrs m))).
    { assert (forall k, (forall i p, aptrs m !! i = Some (Some p) -> idof p = Z.of_nat (k + i)) -> NoDup (omap id (aptrs m))) as H.
      { clear. induction (aptrs m) as [|[p|] l IH]; intros k Hk; simpl; [constructor|constructor|].
        - intros (x & Hx & Hid)%elem_of_list_omap. simpl in Hid. subst x.
          apply elem_of_list_lookup in Hx as [i Hi].
          pose proof (Hk (S i) p Hi). pose proof (Hk 0 p eq_refl). lia.
        - apply (IH (S k)). intros i q Hq. rewrite (Hk (S i) q Hq). lia.
        - apply (IH (S k)). intros i q Hq. rewrite (Hk (S i) q Hq). lia. }
      apply (H 0). intros i p Hi. simpl. by apply (m_slot _ _ _ I) in Hi as [? _]. }
    assert (Hnd2 : NoDup (map snd (gmm m))).
    { assert (Hinj : forall e, e ∈ gmm m -> e.1 = idof e.2).
      { intros [k q] Hk. apply (m_gkey _ _ _ I) in Hk. simpl. tauto. }
      pose proof (m_nodup _ _ _ I) as Hnd. revert Hinj Hnd.
      induction (gmm m) as [|[k q] l IHl]; intros Hinj Hnd; simpl; [constructor|].
      apply NoDup_cons in Hnd as [Hnin Hnd]. constructor.
      + intros ([k' q'] & -> & Hin)%elem_of_list_fmap. simpl in *. apply Hnin.
        pose proof (Hinj (k, q') ltac:(left)) as H1.
        pose proof (Hinj (k', q') ltac:(by right)) as H2. simpl in *. subst. done.
      + apply IHl; [|done]. intros e He. apply Hinj. by right. }
    assert (Hperm : omap id (aptrs m) ++ map snd (gmm m) ≡ₚ elements (locals c ∪ ghosts c)).
    { apply NoDup_Permutation.
      - apply NoDup_app. split; [done|]. split; [|done].
        intros p (x & Hx & Hid)%elem_of_list_omap ([k q] & -> & Hk)%elem_of_list_fmap.
        simpl in *. subst x. apply elem_of_list_lookup in Hx as [i Hi].
        destruct (m_slot _ _ _ I _ _ Hi) as [Hid _].
        destruct (m_gkey _ _ _ I _ _ Hk) as (-> & H0 & q' & Hq' & Hne).
        rewrite Hid, Nat2Z.id in Hq'. congruence.
      - apply NoDup_elements.
      - intros p. rewrite elem_of_app, elem_of_elements. split.
        + intros [(x & Hx & Hid)%elem_of_list_omap|([k q] & -> & Hk)%elem_of_list_fmap].
          * simpl in Hid. subst x. apply elem_of_list_lookup in Hx as [i Hi].
            by apply (m_slot _ _ _ I) in Hi as [_ ?].
          * destruct (m_gkey _ _ _ I _ _ Hk) as (-> & _). simpl. apply elem_of_union_r.
            apply (m_ghost _ _ _ I). by right.
        + intros [Hp|Hp]%elem_of_union.
          * left. apply (m_local _ _ _ I) in Hp as [_ Hp].
            apply elem_of_list_omap. exists (Some p). split; [by eapply elem_of_list_lookup_2|done].
          * apply (m_ghost _ _ _ I) in Hp as [(i & Hi & _)|Hp].
            -- left. apply elem_of_list_omap. exists (Some p). split; [by eapply elem_of_list_lookup_2|done].
            -- right. apply elem_of_list_fmap. by exists (idof p, p). }
    apply Permutation_length in Hperm. rewrite app_length, map_length in Hperm.
    change (length (elements ?X)) with (size X) in Hperm. rewrite size_union in Hperm by done.
    pose proof (m_nl _ _ _ I). pose proof (m_ng _ _ _ I) as Hng. unfold nGhost in Hng. lia.
  Qed.

  Lemma map_valid idof m c : minv idof m c -> map_isValid idof m = true.
  Proof.
    intros I. unfold map_isValid. apply andb_true_iff. split; [apply andb_true_iff; split|].
    - apply Is_true_true, forallb_True, Forall_forall. intros [i o] Hin.
      apply elem_of_list_lookup in Hin as [k Hk]. rewrite list_lookup_imap in Hk.
      destruct (aptrs m !! k) as [o'|] eqn:Ek; [|done]. simpl in Hk. injection Hk as <- <-.
      destruct o' as [p|]; [|done]. simpl. apply (m_slot _ _ _ I) in Ek as [-> _].
      apply bool_decide_spec. done.
    - apply bool_decide_eq_true. by eapply occupied_count.
    - apply Is_true_true, forallb_True, Forall_forall. intros [k p] Hin. simpl.
      destruct (m_gkey _ _ _ I _ _ Hin) as (-> & H0 & q & Hq & _).
      rewrite bool_decide_true by done. simpl. unfold slot. by rewrite Hq.
  Qed.

  Lemma storage_valid s : sinv s -> newA s = None -> newG s = None -> st_isValid s = true.
  Proof.
    intros I HA HG. pose proof (s_map _ I) as Im. unfold st_isValid.
    rewrite !andb_true_iff. repeat split.
    - apply bool_decide_eq_true. pose proof (Permutation_length (s_A _ I)) as H.
      rewrite HA in H. simpl in H. rewrite app_length, seq_length in H. rewrite (s_ll _ I). lia.
    - apply bool_decide_eq_true. pose proof (Permutation_length (s_G _ I)) as H.
      rewrite HG in H. simpl in H. rewrite app_length, seq_length in H. rewrite (s_lg _ I). lia.
    - apply bool_decide_eq_true. rewrite (m_ng _ _ _ Im). simpl. rewrite size_list_to_set, map_length; [done|].
      apply NoDup_fmap_2; [intros ?? [=]; done|].
      pose proof (sinv_nodupG _ I) as Hnd.
      apply NoDup_app in Hnd as (_ & _ & Hnd). by apply NoDup_app in Hnd as (_ & _ & Hnd).
    - by eapply map_valid.
    - apply Is_true_true, forallb_True, Forall_forall. intros n Hn. apply bool_decide_spec.
      apply (PL_in n s) in Hn. destruct (m_local _ _ _ Im _ Hn) as [H0 H1].
      unfold slot. by rewrite H1.
    - apply Is_true_true, forallb_True, Forall_forall. intros n Hn. apply (PG_in n s) in Hn.
      pose proof (minv_gmm_slot _ _ _ _ Im Hn) as Hr.
      destruct (slot (smap s) (st_id s (PG n))) eqn:E; [done|].
      destruct (find_ok _ _ _ _ Im Hr) as (r & Hf & Hc).
      unfold map_find in Hf. rewrite Hr, E in Hf. injection Hf as <-.
      exfalso. apply (Hc (PG n)); [|done]. set_solver.
  Qed.

  Lemma sinv_counts s : sinv s ->
    nLoc (smap s) = Z.of_nat (length (aSet s)) /\ nGhost (smap s) = Z.of_nat (length (gSet s)).
  Proof.
    intros I. rewrite (m_nl _ _ _ (s_map _ I)), (m_ng _ _ _ (s_map _ I)). simpl.
    split; rewrite size_list_to_set; rewrite ?map_length; try done;
      (apply NoDup_fmap_2; [intros ?? [=]; done|]).
    - pose proof (sinv_nodupA _ I) as Hnd.
      apply NoDup_app in Hnd as (_ & _ & Hnd). by apply NoDup_app in Hnd as (_ & _ & Hnd).
    - pose proof (sinv_nodupG _ I) as Hnd.
      apply NoDup_app in Hnd as (_ & _ & Hnd). by apply NoDup_app in Hnd as (_ & _ & Hnd).
  Qed.

  Lemma locked_keeps s o s' :
    locked s = true -> (forall n, o <> ORemoveAtom n) ->
    st_step choose s o = ROk s' tt -> st_counts s' = st_counts s.
  Proof.
    intros HL Ho Hs. destruct o; simpl in Hs;
      unfold newAtomPtr, setNewId, addNewAtom, addAtom, newAtomPtr, clearAtoms, newGhostPtr, setNewGhostId,
        addNewGhost, addGhostAtom, newGhostPtr, removeGhostAtom, clearGhostAtoms in Hs;
      rewrite ?HL in Hs; simpl in Hs.
    all: try (repeat case_match; simplify_eq/=; done).
    by destruct (Ho n).
  Qed.
End P.
