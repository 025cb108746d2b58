(** Property C20: group storage keeps one record per group id. *)
From Verif Require Import Base Containers GroupStorageModel GroupStorageSpec GroupStorageProofs.

(** After any history of calls - some of which may throw - in which remove is not
    applied to the record still handed out: nothing undefined has happened, slots
    are conserved, find answers correctly for every id, and no two groups in use
    have the same id. *)
Theorem group_storage_one_record_per_id_partial :
  forall cap total ops, gs_respects cap (gs_init cap total) ops ->
  exists s, gs_run (gs_init cap total) ops = Some s /\
    gs_conserved cap s /\
    (forall k, k < total ->
       exists r, gs_find s (Z.of_nat k) = Ok r /\ gs_find_correct s (Z.of_nat k) r) /\
    (forall n m id, gs_holds s n id -> gs_holds s m id ->
       n = m /\ (0 <= id < Z.of_nat total)%Z) /\
    (gsNew s = None -> gs_isValid s = true).
Proof.
  intros cap total ops H.
  destruct (run_ok cap total ops _ (ginv_init cap total) H) as (s & Hr & I).
  exists s. split; [done|]. split; [apply I|]. split; [|split].
  - intros k Hk. by apply (find_ok cap total).
  - intros n m id [H1 H2] [H3 H4].
    destruct (g_set _ _ _ I _ H1) as (k & Hk & Hp).
    destruct (g_set _ _ _ I _ H3) as (k' & Hk' & Hp').
    rewrite H2 in Hk. rewrite H4 in Hk'. injection Hk as ->. injection Hk' as Hk'.
    assert (k = k') as -> by lia.
    rewrite Hp in Hp'. injection Hp' as ->. split; [done|].
    apply lookup_lt_Some in Hp. rewrite (g_tot _ _ _ I) in Hp. lia.
  - by apply (valid_ok cap total).
Qed.

(** Effect of the single calls after such a history: adding an id that is in use
    throws and changes nothing; adding one that is free succeeds exactly when it is
    in range and a slot is left; remove takes out that group only; clearGroups
    empties the storage. *)
Theorem group_storage_effects_partial :
  forall cap total ops s, gs_respects cap (gs_init cap total) ops ->
  gs_run (gs_init cap total) ops = Some s ->
  (forall n id, gsNew s = Some n -> gsIds s !! n = Some id ->
     (exists m, gs_holds s m id) -> gs_add s = RThrow s) /\
  (forall n id, gsNew s = Some n -> gsIds s !! n = Some id ->
     (0 <= id < Z.of_nat total)%Z -> (forall m, ~ gs_holds s m id) ->
     exists s', gs_add s = ROk s' tt /\ gsSet s' = gsSet s ++ [n] /\ gs_holds s' n id) /\
  (forall n, n ∈ gsSet s ->
     exists s', gs_remove s n = ROk s' tt /\ n :: gsSet s' ≡ₚ gsSet s) /\
  (exists s', gs_clear s = ROk s' tt /\ gsSet s' = []).
Proof.
  intros cap total ops s H Hr.
  destruct (run_ok cap total ops _ (ginv_init cap total) H) as (s0 & Hr' & I).
  rewrite Hr in Hr'. injection Hr' as <-. split; [|split; [|split]].
  - intros n id Hn Hid (m & Hm & Hi). unfold gs_add. rewrite Hn, Hid.
    destruct (g_set _ _ _ I _ Hm) as (k & Hk & Hp). rewrite Hi in Hk. injection Hk as ->.
    rewrite (proj2 (in_range_nat s k)) by (by apply lookup_lt_Some in Hp).
    by rewrite Nat2Z.id, Hp.
  - intros n id Hn Hid Hb Hfree.
    pose proof (add_ok cap total s _ I eq_refl) as Ha.
    destruct (gs_add s) as [s' []| |] eqn:E; [| |done].
    + destruct Ha as (I' & _ & n' & k & Hn' & Hk & _ & Hs).
      rewrite Hn in Hn'. injection Hn' as <-. exists s'. split; [done|]. split; [done|].
      split; [rewrite Hs; apply elem_of_app; right; by apply elem_of_list_singleton|].
      revert E. unfold gs_add. rewrite Hn, Hid. repeat case_match; try done.
      intros [= <-]. done.
    + exfalso. clear Ha. revert E. unfold gs_add. rewrite Hn, Hid.
      assert (gs_in_range s id = true) as ->.
      { unfold gs_in_range. rewrite andb_true_iff, Z.leb_le, Z.ltb_lt, (g_tot _ _ _ I). lia. }
      destruct (gsPtrs s !! Z.to_nat id) as [[m|]|] eqn:Ep; [|
        |done].
      * apply (g_ptr _ _ _ I) in Ep as [? Ep]. rewrite Z2Nat.id in Ep by lia.
        intros _. by apply (Hfree m).
      * unfold set_append. rewrite decide_False; [done|]. by apply (ginv_disj_new _ _ _ _ I Hn).
  - intros n Hs. destruct (ginv_disj _ _ _ _ I Hs) as [H1 H2].
    assert (n < cap) as Hc by (apply (ginv_in _ _ _ _ I); auto).
    pose proof (remove_ok cap total s n _ I Hc H2 eq_refl) as Hx.
    destruct (gs_remove s n) as [s' []| |]; [|tauto|done]. exists s'. tauto.
  - destruct (clear_ok cap total s I) as (s' & ? & _ & ? & _). eauto.
Qed.

Example group_storage_example :
  let ops := [GAddId 4; GAddId 2; GAddId 4; GReturn; GRemove 0; GAddId 4; GRemove 1; GNew; GSetId 7] in
  gs_respects 3 (gs_init 3 5) ops /\
  exists s, gs_run (gs_init 3 5) ops = Some s /\ gsSet s = [0] /\ gsIds s !! 0 = Some 4%Z /\
            gs_find s 4 = Ok (Some 0) /\ gs_find s 2 = Ok None.
Proof.
  split; [vm_compute; intuition (try congruence; lia)|].
  eexists. split; [vm_compute; reflexivity|]. vm_compute. done.
Qed.

(** Without that restriction the claim is false.  remove "throws if groupPtr is not
    the address of a group" (GroupStorage.h:196), but when the record handed out
    carries the id of a stored group, the exception leaves its slot in two places. *)
Theorem group_storage_one_record_per_id_refuted :
  exists s, gs_run (gs_init 3 5) [GAddId 4; GNew; GSetId 4; GRemove 1] = Some s /\
    gsNew s = Some 1 /\ 1 ∈ gsRes s /\ ~ gs_conserved 3 s.
Proof.
  eexists. split; [vm_compute; reflexivity|]. split; [done|]. split; [left|].
  unfold gs_conserved. simpl. intros H. apply Permutation_length in H. done.
Qed.

Print Assumptions group_storage_one_record_per_id_partial.
Print Assumptions group_storage_effects_partial.
Print Assumptions group_storage_one_record_per_id_refuted.
