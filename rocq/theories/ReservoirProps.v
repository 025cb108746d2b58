(** Molecules are never lost or duplicated between reservoirs, system and caller (C43). *)
From Verif Require Import Base Containers SpeciesModel SpeciesSpec SpeciesProofs SimModel SimSpec SimProofs SimGroups SimInit SimProps ActivateModel ActivateProps ReservoirModel.

(** States reached by callers that return or add only molecules they hold; [h] lists the molecules held: taken from a
    reservoir or removed from the system, and not yet returned or added.  In between any atom may be deactivated or reactivated. *)
Inductive reach (s : sim) : mstate -> list nat -> Prop :=
| reach_init : reach s (ms0 s) []
| reach_get st h i st' m : reach s st h -> get_molecule s st i = Ok (st', m) -> reach s st' (m :: h)
| reach_return st h m h' st' : reach s st h -> h ≡ₚ m :: h' -> return_molecule s st m = Ok st' -> reach s st' h'
| reach_add st h m h' st' : reach s st h -> h ≡ₚ m :: h' -> add_molecule s st m = Ok st' -> reach s st' h'
| reach_remove st h m st' : reach s st h -> remove_molecule s st m = Ok st' -> reach s st' (m :: h)
| reach_remove_all st h st' : reach s st h -> remove_all s st = Ok st' -> reach s st' h
| reach_act st h o a : reach s st h ->
    match o with ODeactivate x | OReactivate x => x < length (siAtoms s) | OActivate p => p < length (siMols s) end ->
    act_step s (msAct st) o = Ok a -> reach s (MS (msRes st) (msSet st) (msPtr st) a) h.

(** Every molecule is in exactly one place, once. *)
Record accounted (s : sim) (st : mstate) (h : list nat) : Prop := {
  ac_once : mjoin (msRes st) ++ mjoin (msSet st) ++ h ≡ₚ seq 0 (length (siMols s));
  ac_res : forall i r m, msRes st !! i = Some r -> m ∈ r -> moSpecies <$> siMols s !! m = Some i;
  ac_set : forall i l m, msSet st !! i = Some l -> m ∈ l -> moSpecies <$> siMols s !! m = Some i;
  ac_nres : length (msRes st) = length (siSpecies s);
  ac_nset : length (msSet st) = length (siSpecies s);
  ac_ptr : length (msPtr st) = length (siMols s) /\ forall m, msPtr st !! m = Some (Some ()) <-> m ∈ mjoin (msSet st)
}.

Lemma join_insert (L : list (list nat)) i l l' x : L !! i = Some l -> l ≡ₚ x :: l' -> mjoin L ≡ₚ x :: mjoin (<[i := l']> L).
Proof.
  intros Hi Hl. rewrite <- (take_drop_middle L i l Hi) at 1. apply lookup_lt_Some in Hi. rewrite insert_take_drop by done.
  assert (J : forall a b : list (list nat), mjoin (a ++ b) = mjoin a ++ mjoin b).
  { induction a as [|y a IH]; intros b; [done|]. cbn. rewrite <- app_assoc. by rewrite <- IH. }
  rewrite !J. cbn [mjoin list_join]. change (mjoin (l :: drop (S i) L)) with (l ++ mjoin (drop (S i) L)).
  change (mjoin (l' :: drop (S i) L)) with (l' ++ mjoin (drop (S i) L)). rewrite Hl. cbn [app].
  by rewrite <- Permutation_middle.
Qed.
Lemma join_insert' (L : list (list nat)) i l l' x : L !! i = Some l -> l' ≡ₚ x :: l -> mjoin (<[i := l']> L) ≡ₚ x :: mjoin L.
Proof.
  intros Hi Hl. apply lookup_lt_Some in Hi as Hlt.
  rewrite (join_insert (<[i := l']> L) i l' l x); [|by apply list_lookup_insert|done].
  rewrite list_insert_insert. by rewrite (list_insert_id L i l).
Qed.
Lemma in_join (L : list (list nat)) i l x : L !! i = Some l -> x ∈ l -> x ∈ mjoin L.
Proof. intros Hi Hx. apply elem_of_list_join. exists l. split; [done|]. by eapply elem_of_list_lookup_2. Qed.

Section Res.
Context (s : sim) (Hin : input_ok (siSpecies s)) (Hmok : molecules_ok s).
Context (Hres : siRes s = map (fun i => seq (before (fun _ => 1%Z) (siSpecies s) i) (Z.to_nat (default 0%Z (spCap <$> siSpecies s !! i)))) (seq 0 (length (siSpecies s)))).
Context (HB : kind_ok s spBond (siBonds s)) (HA : kind_ok s spAngle (siAngles s)) (HD : kind_ok s spDihedral (siDihedrals s)).
Context (HlB : length (gsMol (siBonds s)) = length (siMols s)) (HlA : length (gsMol (siAngles s)) = length (siMols s))
  (HlD : length (gsMol (siDihedrals s)) = length (siMols s)).

Definition good (st : mstate) (h : list nat) : Prop := accounted s st h /\ inv s (msAct st).

(** The molecules of species i. *)
Lemma species_block m i : moSpecies <$> siMols s !! m = Some i ->
  exists sp, siSpecies s !! i = Some sp /\ before (fun _ => 1%Z) (siSpecies s) i <= m < before (fun _ => 1%Z) (siSpecies s) i + Z.to_nat (spCap sp).
Proof.
  intros H. destruct (siMols s !! m) as [ml|] eqn:E; [|done]. injection H as H.
  destruct (mol_at s Hmok m ml E) as (x & Hx & -> & Hs). cbn in H. subst i. exists (fsp x). split; [done|].
  destruct (F_lookup_inv (siSpecies s) _ _ Hx) as (_ & H2 & H3). lia.
Qed.
Lemma species_block_inv m i sp : siSpecies s !! i = Some sp ->
  before (fun _ => 1%Z) (siSpecies s) i <= m < before (fun _ => 1%Z) (siSpecies s) i + Z.to_nat (spCap sp) ->
  moSpecies <$> siMols s !! m = Some i.
Proof.
  intros Hi Hm. pose proof (mok_mol _ Hmok i sp (m - before (fun _ => 1%Z) (siSpecies s) i) Hi ltac:(lia)) as E.
  replace (_ + _) with m in E by lia. by rewrite E.
Qed.
Lemma reservoirs_join : mjoin (siRes s) = seq 0 (length (siMols s)).
Proof.
  rewrite Hres, (mok_count _ Hmok). set (sps := siSpecies s). clear.
  assert (H : forall pre post, sps = pre ++ post ->
     mjoin (map (fun i => seq (before (fun _ => 1%Z) sps i) (Z.to_nat (default 0%Z (spCap <$> sps !! i)))) (seq (length pre) (length post)))
     = seq (before (fun _ => 1%Z) sps (length pre)) (before (fun _ => 1%Z) sps (length sps) - before (fun _ => 1%Z) sps (length pre))).
  { intros pre post. revert pre. induction post as [|sp post IH]; intros pre Hs.
    - rewrite app_nil_r in Hs. subst pre. cbn. by rewrite Nat.sub_diag.
    - cbn [length seq map]. change (mjoin (?a :: ?b)) with (a ++ mjoin b).
      specialize (IH (pre ++ [sp])). rewrite <- app_assoc, app_length, Nat.add_1_r in IH. rewrite (IH Hs).
      rewrite Hs at 2. rewrite list_lookup_middle by done. cbn [fmap option_fmap option_map default].
      assert (E : before (fun _ => 1%Z) sps (S (length pre)) = before (fun _ => 1%Z) sps (length pre) + Z.to_nat (spCap sp)).
      { rewrite Hs. unfold before. rewrite take_app. rewrite cons_middle, app_assoc, take_app_alt by (rewrite app_length; cbn; lia).
        rewrite sum_list_with_app. cbn [sum_list_with]. lia. }
      assert (E2 : before (fun _ => 1%Z) sps (S (length pre)) <= before (fun _ => 1%Z) sps (length sps)).
      { unfold before. rewrite firstn_all. rewrite <- (take_drop (S (length pre)) sps) at 2. rewrite sum_list_with_app. lia. }
      rewrite E. rewrite E in E2. rewrite <- seq_app. f_equal. lia. }
  specialize (H [] sps eq_refl). cbn [length] in H. rewrite H. unfold before at 1 3. rewrite take_0. cbn [sum_list_with]. by rewrite Nat.sub_0_r.
Qed.

Lemma good_init : good (ms0 s) [].
Proof.
  split; [|apply inv_act0].
  assert (Hj : mjoin (replicate (length (siSpecies s)) []) = @nil nat).
  { apply join_nil_2, Forall_replicate. done. }
  constructor; cbn [msRes msSet msPtr ms0].
  - rewrite Hj, reservoirs_join. cbn [app]. by rewrite app_nil_r.
  - intros i r m Hi Hm. rewrite Hres in Hi. rewrite list_lookup_fmap in Hi.
    destruct (seq 0 _ !! i) as [j|] eqn:Ej; [|done]. apply lookup_seq in Ej as [-> Hj']. cbn [plus fmap option_fmap option_map] in Hi.
    destruct (lookup_lt_is_Some_2 (siSpecies s) i Hj') as [sp Hsp]. injection Hi as <-. rewrite Hsp in Hm. cbn in Hm.
    apply elem_of_seq in Hm. by eapply species_block_inv.
  - intros i l m Hi Hm. apply lookup_replicate in Hi as [-> _]. by apply elem_of_nil in Hm.
  - rewrite Hres, map_length, seq_length. done.
  - apply replicate_length.
  - split; [apply replicate_length|]. intros m. rewrite Hj. split; [|by intros ?%elem_of_nil].
    intros H. apply lookup_replicate in H as [? _]. done.
Qed.

Lemma join_NoDup st h : accounted s st h -> NoDup (mjoin (msRes st) ++ mjoin (msSet st) ++ h).
Proof. intros H. rewrite (ac_once _ _ _ H). apply NoDup_seq. Qed.
Lemma held_mol st h m : accounted s st h -> m ∈ h -> exists ml i, siMols s !! m = Some ml /\ moSpecies ml = i /\ i < length (siSpecies s).
Proof.
  intros H Hm. assert (Hm' : m ∈ seq 0 (length (siMols s))).
  { rewrite <- (ac_once _ _ _ H). rewrite !elem_of_app. auto. }
  apply elem_of_seq in Hm'. destruct (lookup_lt_is_Some_2 (siMols s) m) as [ml Hml]; [lia|]. exists ml, (moSpecies ml). split; [done|]. split; [done|].
  destruct (mol_at s Hmok m ml Hml) as (x & _ & -> & Hs). cbn. by eapply lookup_lt_Some.
Qed.

Lemma get_Ok st h i : good st h -> i < length (siSpecies s) ->
  (msRes st !! i = Some [] /\ get_molecule s st i = Throw) \/
  exists r m st', msRes st !! i = Some (m :: r) /\ get_molecule s st i = Ok (st', m) /\ good st' (m :: h) /\
    moSpecies <$> siMols s !! m = Some i /\
    forall ml x, siMols s !! m = Some ml -> moFirst ml <= x < moFirst ml + moNAtom ml -> acAtoms (msAct st') !! x = Some true.
Proof.
  intros [Ha Hi'] Hlt. unfold get_molecule. destruct (lookup_lt_is_Some_2 (msRes st) i) as [r Hr]; [rewrite (ac_nres _ _ _ Ha); done|].
  rewrite (aget_Ok' _ _ _ Hr). cbn [obind]. destruct r as [|m r]; [left; done|right]. cbn [stack_pop obind].
  assert (Hsp : moSpecies <$> siMols s !! m = Some i) by (eapply (ac_res _ _ _ Ha); [done|left]).
  destruct (siMols s !! m) as [ml|] eqn:Eml; [|done].
  destruct (activate_Ok s Hin Hmok HB HA HD HlB HlA HlD (msAct st) m ml Hi' Eml) as (a' & E & Hinv & Hat). rewrite E. cbn [obind].
  exists r, m. eexists. split; [done|]. split; [reflexivity|].
  pose proof (join_insert _ i (m :: r) r m Hr ltac:(done)) as HJ.
  split; [|split; [by rewrite Eml|]].
  - split; [|done]. constructor; cbn [msRes msSet msPtr].
    + rewrite <- (ac_once _ _ _ Ha), HJ. cbn [app]. rewrite !app_assoc. by rewrite <- Permutation_middle.
    + intros j r' m' Hj Hm'. destruct (decide (j = i)) as [->|Hne].
      * rewrite list_lookup_insert in Hj by (by eapply lookup_lt_Some). injection Hj as <-. eapply (ac_res _ _ _ Ha); [done|by right].
      * rewrite list_lookup_insert_ne in Hj by done. by eapply (ac_res _ _ _ Ha).
    + apply (ac_set _ _ _ Ha).
    + rewrite insert_length. apply (ac_nres _ _ _ Ha).
    + apply (ac_nset _ _ _ Ha).
    + apply (ac_ptr _ _ _ Ha).
  - intros ml' x Eml' Hx. assert (ml' = ml) as -> by congruence. cbn [msAct]. rewrite Hat. by rewrite decide_True.
Qed.
Lemma return_Ok st h m h' : good st h -> h ≡ₚ m :: h' -> exists st', return_molecule s st m = Ok st' /\ good st' h' /\ msSet st' = msSet st.
Proof.
  intros [Ha Hi'] Hh. assert (Hm : m ∈ h) by (rewrite Hh; left).
  destruct (held_mol st h m Ha Hm) as (ml & i & Eml & Ei & Hlt). unfold return_molecule, species_of. rewrite (aget_Ok' _ _ _ Eml). cbn [obind]. rewrite Ei.
  destruct (lookup_lt_is_Some_2 (msRes st) i) as [r Hr]; [rewrite (ac_nres _ _ _ Ha); done|]. rewrite (aget_Ok' _ _ _ Hr). cbn [obind].
  destruct (lookup_lt_is_Some_2 (siSpecies s) i Hlt) as [sp Hsp]. unfold capacity_of. rewrite (aget_Ok' _ _ _ Hsp). cbn [obind].
  assert (Hsm : moSpecies <$> siMols s !! m = Some i) by (rewrite Eml; cbn; by rewrite Ei).
  pose proof (join_NoDup _ _ Ha) as Hnd. rewrite Hh in Hnd.
  assert (Hlen : length (m :: r) <= length (seq (before (fun _ => 1%Z) (siSpecies s) i) (Z.to_nat (spCap sp)))).
  { apply submseteq_length, NoDup_submseteq.
    - constructor.
      + intros Hmr. apply NoDup_app in Hnd as (_ & Hd & _). apply (Hd m); [by eapply in_join|]. apply elem_of_app. right. left.
      + apply NoDup_app in Hnd as (Hnd & _). apply elem_of_list_split_length in Hr as (l1 & l2 & E & _). rewrite E in Hnd.
        clear -Hnd. induction l1 as [|y l1 IH]; cbn in Hnd; apply NoDup_app in Hnd as (? & _ & ?); auto.
    - intros x Hx. apply elem_of_seq. assert (Hsx : moSpecies <$> siMols s !! x = Some i).
      { apply elem_of_cons in Hx as [->|Hx]; [done|]. by eapply (ac_res _ _ _ Ha). }
      destruct (species_block x i Hsx) as (sp' & Hsp' & ?). assert (sp' = sp) as -> by congruence. done. }
  rewrite seq_length in Hlen. cbn [length] in Hlen. unfold stack_push. rewrite decide_True by lia. cbn [obind].
  eexists. split; [reflexivity|]. split; [|done].
  pose proof (join_insert' _ i r (m :: r) m Hr ltac:(done)) as HJ.
  split; [|done]. constructor; cbn [msRes msSet msPtr].
  - rewrite <- (ac_once _ _ _ Ha), HJ, Hh. cbn [app]. rewrite !app_assoc. by rewrite <- Permutation_middle.
  - intros j r' m' Hj Hm'. destruct (decide (j = i)) as [->|Hne].
    + rewrite list_lookup_insert in Hj by (by eapply lookup_lt_Some). injection Hj as <-. apply elem_of_cons in Hm' as [->|Hm']; [done|].
      by eapply (ac_res _ _ _ Ha).
    + rewrite list_lookup_insert_ne in Hj by done. by eapply (ac_res _ _ _ Ha).
  - apply (ac_set _ _ _ Ha).
  - rewrite insert_length. apply (ac_nres _ _ _ Ha).
  - apply (ac_nset _ _ _ Ha).
  - apply (ac_ptr _ _ _ Ha).
Qed.
Lemma add_Ok st h m h' : good st h -> h ≡ₚ m :: h' -> exists st', add_molecule s st m = Ok st' /\ good st' h'.
Proof.
  intros [Ha Hi'] Hh. assert (Hm : m ∈ h) by (rewrite Hh; left).
  destruct (held_mol st h m Ha Hm) as (ml & i & Eml & Ei & Hlt). unfold add_molecule, species_of. rewrite (aget_Ok' _ _ _ Eml). cbn [obind]. rewrite Ei.
  rewrite bool_decide_eq_true_2 by (rewrite (ac_nset _ _ _ Ha); done). cbn [check obind].
  destruct (lookup_lt_is_Some_2 (msSet st) i) as [l Hl]; [rewrite (ac_nset _ _ _ Ha); done|]. rewrite (aget_Ok' _ _ _ Hl). cbn [obind].
  pose proof (join_NoDup _ _ Ha) as Hnd. rewrite Hh in Hnd.
  assert (Hml : m ∉ mjoin (msSet st)).
  { intros Hmr. apply NoDup_app in Hnd as (_ & _ & Hnd). apply NoDup_app in Hnd as (_ & Hd & _). apply (Hd m); [done|left]. }
  assert (Hml' : m ∉ l) by (intros ?; apply Hml; by eapply in_join).
  unfold set_append. rewrite decide_False by done. cbn [obind]. destruct (ac_ptr _ _ _ Ha) as [Hpl Hp].
  assert (Hmlt : m < length (siMols s)) by (by eapply lookup_lt_Some). rewrite aset_Ok' by lia. cbn [obind].
  eexists. split; [reflexivity|].
  pose proof (join_insert' _ i l (l ++ [m]) m Hl ltac:(by rewrite Permutation_app_comm)) as HJ.
  split; [|done]. constructor; cbn [msRes msSet msPtr].
  - rewrite <- (ac_once _ _ _ Ha), HJ, Hh. apply Permutation_app; [done|]. cbn [app]. by rewrite <- Permutation_middle.
  - apply (ac_res _ _ _ Ha).
  - intros j r' m' Hj Hm'. destruct (decide (j = i)) as [->|Hne].
    + rewrite list_lookup_insert in Hj by (by eapply lookup_lt_Some). injection Hj as <-. apply elem_of_app in Hm' as [Hm'|Hm'%elem_of_list_singleton]; [|subst m'].
      * by eapply (ac_set _ _ _ Ha).
      * rewrite Eml. cbn. by rewrite Ei.
    + rewrite list_lookup_insert_ne in Hj by done. by eapply (ac_set _ _ _ Ha).
  - apply (ac_nres _ _ _ Ha).
  - rewrite insert_length. apply (ac_nset _ _ _ Ha).
  - rewrite insert_length. split; [done|]. intros m'. rewrite HJ, elem_of_cons. destruct (decide (m' = m)) as [->|Hne].
    + rewrite list_lookup_insert by lia. naive_solver.
    + rewrite list_lookup_insert_ne by done. rewrite Hp. naive_solver.
Qed.
Lemma remove_Ok st h m : good st h -> m ∈ mjoin (msSet st) ->
  exists st' i l l', remove_molecule s st m = Ok st' /\ good st' (m :: h) /\ moSpecies <$> siMols s !! m = Some i /\
    msSet st !! i = Some l /\ l ≡ₚ m :: l' /\ msSet st' = <[i := l']> (msSet st).
Proof.
  intros [Ha Hi'] Hm. destruct (ac_ptr _ _ _ Ha) as [Hpl Hp]. apply Hp in Hm as Hptr. unfold remove_molecule. rewrite (aget_Ok' _ _ _ Hptr). cbn [obind].
  apply elem_of_list_join in Hm as (l & Hml & Hl). apply elem_of_list_lookup in Hl as [i Hl].
  pose proof (ac_set _ _ _ Ha i l m Hl Hml) as Hsm. destruct (siMols s !! m) as [ml|] eqn:Eml; [|done]. injection Hsm as Ei.
  unfold species_of. rewrite (aget_Ok' _ _ _ Eml). cbn [obind]. rewrite Ei, (aget_Ok' _ _ _ Hl). cbn [obind].
  destruct (set_remove_Ok l m Hml) as [l' El]. rewrite El. cbn [obind]. apply set_remove_perm in El as Hperm. symmetry in Hperm.
  assert (Hmlt : m < length (siMols s)) by (by eapply lookup_lt_Some). rewrite aset_Ok' by lia. cbn [obind].
  eexists _, i, l, l'. split; [reflexivity|]. split; [|split; [cbn; by rewrite Ei|done]].
  pose proof (join_insert _ i l l' m Hl Hperm) as HJ.
  pose proof (join_NoDup _ _ Ha) as Hnd. rewrite HJ in Hnd. apply NoDup_app in Hnd as (_ & _ & Hnd). cbn [app] in Hnd.
  apply NoDup_cons in Hnd as [Hnm _]. rewrite elem_of_app in Hnm.
  split; [|done]. constructor; cbn [msRes msSet msPtr].
  - rewrite <- (ac_once _ _ _ Ha), HJ. apply Permutation_app; [done|]. cbn [app]. by rewrite <- Permutation_middle.
  - apply (ac_res _ _ _ Ha).
  - intros j r' m' Hj Hm'. destruct (decide (j = i)) as [->|Hne].
    + rewrite list_lookup_insert in Hj by (by eapply lookup_lt_Some). injection Hj as <-. eapply (ac_set _ _ _ Ha); [done|]. rewrite Hperm. by right.
    + rewrite list_lookup_insert_ne in Hj by done. by eapply (ac_set _ _ _ Ha).
  - apply (ac_nres _ _ _ Ha).
  - rewrite insert_length. apply (ac_nset _ _ _ Ha).
  - rewrite insert_length. split; [done|]. intros m'. destruct (decide (m' = m)) as [->|Hne].
    + rewrite list_lookup_insert by lia. naive_solver.
    + rewrite list_lookup_insert_ne by done. rewrite Hp, HJ, elem_of_cons. naive_solver.
Qed.

Lemma empty_species_Ok i fuel st h : good st h -> i < length (siSpecies s) -> (forall l, msSet st !! i = Some l -> length l <= fuel) ->
  exists st', empty_species s i fuel st = Ok st' /\ good st' h /\ msSet st' = <[i := []]> (msSet st).
Proof.
  revert st. induction fuel as [|fuel IH]; intros st Hg Hi Hf.
  all: destruct (lookup_lt_is_Some_2 (msSet st) i) as [l Hl]; [destruct Hg as [Ha _]; rewrite (ac_nset _ _ _ Ha); done|].
  all: specialize (Hf l Hl) as Hf'; cbn [empty_species]; unfold n_molecule at 1; rewrite (aget_Ok' _ _ _ Hl); cbn [obind].
  - destruct l; [|cbn in Hf'; lia]. cbn. exists st. split; [done|]. split; [done|]. by rewrite list_insert_id.
  - destruct (length l) as [|n] eqn:En.
    { apply nil_length_inv in En as ->. exists st. split; [done|]. split; [done|]. by rewrite list_insert_id. }
    destruct (lookup_lt_is_Some_2 l n) as [m Hm]; [lia|]. unfold molecule at 1. rewrite (aget_Ok' _ _ _ Hl). cbn [obind]. rewrite (aget_Ok' _ _ _ Hm). cbn [obind].
    assert (Hmj : m ∈ mjoin (msSet st)) by (eapply in_join; [done|]; by eapply elem_of_list_lookup_2).
    destruct (remove_Ok st h m Hg Hmj) as (st1 & j & l1 & l1' & -> & Hg1 & Hsp & Hj & Hperm & Hset). cbn [obind].
    assert (j = i) as ->.
    { destruct Hg as [Ha _]. pose proof (ac_set _ _ _ Ha i l m Hl ltac:(by eapply elem_of_list_lookup_2)). congruence. }
    assert (l1 = l) as -> by congruence.
    destruct (return_Ok st1 (m :: h) m h Hg1 ltac:(done)) as (st2 & -> & Hg2 & Hset2). cbn [obind].
    destruct (IH st2 Hg2 Hi) as (st3 & E3 & Hg3 & Hset3).
    { intros l2 Hl2. rewrite Hset2, Hset, list_lookup_insert in Hl2 by (by eapply lookup_lt_Some). injection Hl2 as <-.
      apply Permutation_length in Hperm. cbn in Hperm. lia. }
    exists st3. split; [done|]. split; [done|]. rewrite Hset3, Hset2, Hset. by rewrite list_insert_insert.
Qed.
Lemma remove_all_Ok st h : good st h -> exists st', remove_all s st = Ok st' /\ good st' h /\ msSet st' = replicate (length (siSpecies s)) [].
Proof.
  intros Hg. unfold remove_all.
  destruct (foldM_total (fun st i => let? n := n_molecule st i in empty_species s i n st)
     (fun n st => good st h /\ forall i, i < n -> i < length (siSpecies s) -> msSet st !! i = Some []) (seq 0 (length (siSpecies s))) st) as (st' & E & Hg' & Hs').
  - split; [done|]. intros; lia.
  - intros n st1 i Hi [Hg1 He]. apply lookup_seq in Hi as [-> Hn]. cbn [plus].
    destruct (lookup_lt_is_Some_2 (msSet st1) n) as [l Hl]; [destruct Hg1 as [Ha _]; rewrite (ac_nset _ _ _ Ha); done|].
    unfold n_molecule at 1. rewrite (aget_Ok' _ _ _ Hl). cbn [obind].
    destruct (empty_species_Ok n (length l) st1 h Hg1 Hn) as (st2 & E2 & Hg2 & Hset2).
    { intros l' Hl'. assert (l' = l) as -> by congruence. done. }
    exists st2. split; [done|]. split; [done|]. intros i Hi Hi'. rewrite Hset2. destruct (decide (i = n)) as [->|].
    + apply list_lookup_insert. by eapply lookup_lt_Some.
    + rewrite list_lookup_insert_ne by done. apply He; lia.
  - exists st'. split; [done|]. split; [done|]. apply list_eq. intros i. destruct Hg' as [Ha _].
    destruct (decide (i < length (siSpecies s))).
    + rewrite lookup_replicate_2 by done. apply Hs'; [rewrite seq_length; done|done].
    + rewrite !lookup_ge_None_2; [done|rewrite replicate_length; lia|rewrite (ac_nset _ _ _ Ha); lia].
Qed.

Lemma reach_good st h : reach s st h -> good st h.
Proof.
  induction 1 as [|st h i st' m _ IH E|st h m h' st' _ IH Hp E|st h m h' st' _ IH Hp E|st h m st' _ IH E|st h st' _ IH E|st h o a _ IH Ho E].
  - apply good_init.
  - assert (Hi : i < length (siSpecies s)).
    { unfold get_molecule in E. destruct (aget (msRes st) i) eqn:Er; try done. apply aget_Ok, lookup_lt_Some in Er.
      destruct IH as [Ha _]. by rewrite (ac_nres _ _ _ Ha) in Er. }
    destruct (get_Ok st h i IH Hi) as [[_ E']|(r & m' & st1 & _ & E' & Hg & _)]; rewrite E in E'; [done|]. by injection E' as <- <-.
  - destruct (return_Ok st h m h' IH Hp) as (st1 & E' & Hg & _). rewrite E in E'. by injection E' as <-.
  - destruct (add_Ok st h m h' IH Hp) as (st1 & E' & Hg). rewrite E in E'. by injection E' as <-.
  - assert (Hm : m ∈ mjoin (msSet st)).
    { unfold remove_molecule in E. destruct (aget (msPtr st) m) as [q| |] eqn:Eq; try done. destruct q as [[]|]; [|done].
      apply aget_Ok in Eq. destruct IH as [Ha _]. by apply (ac_ptr _ _ _ Ha). }
    destruct (remove_Ok st h m IH Hm) as (st1 & ? & ? & ? & E' & Hg & _). rewrite E in E'. by injection E' as <-.
  - destruct (remove_all_Ok st h IH) as (st1 & E' & Hg & _). rewrite E in E'. by injection E' as <-.
  - destruct IH as [Ha Hi']. split.
    + destruct Ha. by constructor.
    + destruct (act_history s Hin Hmok HB HA HD HlB HlA HlD [o] (msAct st) Hi') as [H|(a' & H & Hi2)].
      * by repeat constructor.
      * cbn in H. rewrite E in H. done.
      * cbn in H. rewrite E in H. cbn in H. injection H as <-. done.
Qed.
End Res.

(** All hypotheses about a simulation in one place: it was made by initialisation. *)
Definition made (s : sim) : Prop :=
  exists nB nA nD bonded sps, input_ok sps /\ (0 <= nB)%Z /\ (0 <= nA)%Z /\ (0 <= nD)%Z /\
  ((0 < nB)%Z \/ forall sp, sp ∈ sps -> gtN (spBond sp) = 0%Z) /\
  ((0 < nA)%Z \/ forall sp, sp ∈ sps -> gtN (spAngle sp) = 0%Z) /\
  ((0 < nD)%Z \/ forall sp, sp ∈ sps -> gtN (spDihedral sp) = 0%Z) /\
  init_sim nB nA nD bonded sps = Ok s.
Lemma made_good s : made s -> forall st h, reach s st h -> good s st h.
Proof.
  intros (nB & nA & nD & bonded & sps & Hin & HB & HA & HD & HB' & HA' & HD' & Hs) st h Hr.
  destruct (init_kinds nB nA nD bonded sps s Hin HB HA HD HB' HA' HD' Hs) as (Hsp & Hmok & KB & KA & KD & L1 & L2 & L3).
  destruct (init_layout nB nA nD bonded sps Hin HB HA HD) as (s' & E & _ & _ & _ & _ & _ & _ & Hres & _).
  rewrite Hs in E. injection E as <-. rewrite <- Hsp in Hin, Hres. by eapply reach_good.
Qed.

(** Every molecule is in exactly one reservoir, or in the system, or held; and lists are by species. *)
Theorem molecules_accounted s st h : made s -> reach s st h -> accounted s st h /\ consistent s (msAct st).
Proof.
  intros Hm Hr. destruct (made_good s Hm st h Hr) as [Ha Hi]. split; [done|].
  destruct Hm as (nB & nA & nD & bonded & sps & Hin & HB & HA & HD & HB' & HA' & HD' & Hs).
  destruct (init_kinds nB nA nD bonded sps s Hin HB HA HD HB' HA' HD' Hs) as (Hsp & Hmok & KB & KA & KD & L1 & L2 & L3).
  rewrite <- Hsp in Hin. by apply inv_consistent.
Qed.
(** No operation of such a caller is undefined or throws, except getMolecule on an empty reservoir; a molecule is handed out
    with all its atoms active; removeAllMolecules empties the system. *)
Theorem molecule_ops_total s st h : made s -> reach s st h ->
  (forall i, i < length (siSpecies s) ->
     (msRes st !! i = Some [] /\ get_molecule s st i = Throw) \/
     exists m st', get_molecule s st i = Ok (st', m) /\ moSpecies <$> siMols s !! m = Some i /\ m ∉ h /\
       forall ml x, siMols s !! m = Some ml -> moFirst ml <= x < moFirst ml + moNAtom ml -> acAtoms (msAct st') !! x = Some true) /\
  (forall m, m ∈ h -> is_ok (return_molecule s st m) /\ is_ok (add_molecule s st m)) /\
  (forall m, m ∈ mjoin (msSet st) -> is_ok (remove_molecule s st m)) /\
  exists st', remove_all s st = Ok st' /\ msSet st' = replicate (length (siSpecies s)) [] /\ reach s st' h.
Proof.
  intros Hm Hr. pose proof (made_good s Hm st h Hr) as Hg.
  pose proof Hm as (nB & nA & nD & bonded & sps & Hin & HB & HA & HD & HB' & HA' & HD' & Hs).
  destruct (init_kinds nB nA nD bonded sps s Hin HB HA HD HB' HA' HD' Hs) as (Hsp & Hmok & KB & KA & KD & L1 & L2 & L3).
  rewrite <- Hsp in Hin. split; [|split; [|split]].
  - intros i Hi. destruct (get_Ok s Hin Hmok KB KA KD L1 L2 L3 st h i Hg Hi) as [?|(r & m & st' & Hri & E & _ & E2 & E3)]; [by left|right].
    exists m, st'. split; [done|]. split; [done|]. split; [|done]. intros Hmh. destruct Hg as [Ha _]. pose proof (join_NoDup _ _ _ Ha) as Hnd.
    apply NoDup_app in Hnd as (_ & Hd & _). apply (Hd m); [eapply in_join; [done|left]|]. apply elem_of_app. by right.
  - intros m Hmh. apply elem_of_Permutation in Hmh as [h' Hp]. split.
    + edestruct (return_Ok s) with (st := st) (h := h) (m := m) (h' := h') as (st' & ? & _); [eassumption..|]. by exists st'.
    + edestruct (add_Ok s) with (st := st) (h := h) (m := m) (h' := h') as (st' & ? & _); [eassumption..|]. by exists st'.
  - intros m Hmj. edestruct (remove_Ok s) with (st := st) (h := h) (m := m) as (st' & ? & ? & ? & ? & _); [eassumption..|]. by exists st'.
  - edestruct (remove_all_Ok s) with (st := st) (h := h) as (st' & E & _ & Es); [eassumption..|]. exists st'. split; [done|]. split; [done|]. by eapply reach_remove_all.
Qed.
(** molecule(i, j) for j < nMolecule(i) enumerates the molecules of species i in the system, each once, and moleculeId inverts it. *)
Theorem molecule_enumeration s st h i : made s -> reach s st h -> i < length (siSpecies s) ->
  exists n, n_molecule st i = Ok n /\
    (forall j, j < n -> exists m, molecule st i j = Ok m /\ moSpecies <$> siMols s !! m = Some i /\ msPtr st !! m = Some (Some ()) /\
       molecule_id s st m = Ok (Z.of_nat j)) /\
    (forall m, moSpecies <$> siMols s !! m = Some i -> msPtr st !! m = Some (Some ()) -> exists j, j < n /\ molecule st i j = Ok m) /\
    (forall m, moSpecies <$> siMols s !! m = Some i -> msPtr st !! m <> Some (Some ()) -> molecule_id s st m = Ok (-1)%Z).
Proof.
  intros Hm Hr Hi. destruct (made_good s Hm st h Hr) as [Ha _].
  destruct (lookup_lt_is_Some_2 (msSet st) i) as [l Hl]; [rewrite (ac_nset _ _ _ Ha); done|].
  destruct (ac_ptr _ _ _ Ha) as [_ Hp]. pose proof (join_NoDup _ _ _ Ha) as Hnd. apply NoDup_app in Hnd as (_ & _ & Hnd). apply NoDup_app in Hnd as (Hnd & _).
  assert (Hndl : NoDup l).
  { apply elem_of_list_split_length in Hl as (l1 & l2 & E & _). rewrite E in Hnd.
    clear -Hnd. induction l1 as [|y l1 IH]; cbn in Hnd; apply NoDup_app in Hnd as (? & _ & ?); auto. }
  exists (length l). unfold n_molecule, molecule, molecule_id. rewrite (aget_Ok' _ _ _ Hl). cbn [obind]. split; [done|]. split; [|split].
  - intros j Hj. destruct (lookup_lt_is_Some_2 l j Hj) as [m Hm']. exists m. split; [by apply aget_Ok|].
    assert (Hml : m ∈ l) by (by eapply elem_of_list_lookup_2).
    pose proof (ac_set _ _ _ Ha i l m Hl Hml) as Hs. split; [done|]. split; [apply Hp; by eapply in_join|].
    destruct (siMols s !! m) as [ml|] eqn:Eml; [|done]. injection Hs as Ei. unfold species_of. rewrite (aget_Ok' _ _ _ Eml). cbn [obind].
    rewrite Ei, (aget_Ok' _ _ _ Hl). cbn [obind].
    destruct (list_find (m =.) l) as [[j' m']|] eqn:Ef.
    + apply list_find_Some in Ef as (H1 & <- & _). do 2 f_equal. by eapply NoDup_lookup.
    + apply list_find_None in Ef. rewrite Forall_forall in Ef. by apply Ef in Hml.
  - intros m Hs Hptr. apply Hp, elem_of_list_join in Hptr as (l' & Hml & Hl'). apply elem_of_list_lookup in Hl' as [i' Hl'].
    pose proof (ac_set _ _ _ Ha i' l' m Hl' Hml). assert (i' = i) as -> by congruence. assert (l' = l) as -> by congruence.
    apply elem_of_list_lookup in Hml as [j Hj]. exists j. split; [by eapply lookup_lt_Some|by apply aget_Ok].
  - intros m Hs Hptr. destruct (siMols s !! m) as [ml|] eqn:Eml; [|done]. injection Hs as Ei. unfold species_of. rewrite (aget_Ok' _ _ _ Eml). cbn [obind].
    rewrite Ei, (aget_Ok' _ _ _ Hl). cbn [obind]. destruct (list_find (m =.) l) as [[j' m']|] eqn:Ef; [|done].
    apply list_find_Some in Ef as (H1 & <- & _). exfalso. apply Hptr, Hp. eapply in_join; [done|]. by eapply elem_of_list_lookup_2.
Qed.

(** returnMolecule does not check that the molecule has left the system: it can be in the system and in the reservoir. *)
Theorem return_in_system_refuted : exists s st h st' m, made s /\ reach s st h /\ return_molecule s st m = Ok st' /\
  (exists r, msRes st' !! 0 = Some r /\ m ∈ r) /\ (exists l, msSet st' !! 0 = Some l /\ m ∈ l).
Proof.
  assert (Hex : exists s, init_sim 1 1 0 true [ex_chain; ex_ion] = Ok s) by (eexists; vm_compute; reflexivity).
  destruct Hex as [s Hs].
  assert (Hmade : made s).
  { exists 1%Z, 1%Z, 0%Z, true, [ex_chain; ex_ion]. split; [apply ex_input|]. do 3 (split; [lia|]). do 2 (split; [left; lia|]). split; [right|done].
    intros sp [->|[->|?%elem_of_nil]%elem_of_cons]%elem_of_cons; done. }
  vm_compute in Hs. injection Hs as <-.
  match type of Hmade with made ?s0 => pose proof (reach_init s0) as R end.
  eapply (reach_get _ _ _ 0) in R; [|vm_compute; reflexivity].
  eapply (reach_add _ _ _ 0 []) in R; [|done|vm_compute; reflexivity].
  eexists _, _, _, _, 0. split; [exact Hmade|]. split; [exact R|]. split; [vm_compute; reflexivity|].
  split; (eexists; split; [reflexivity|left]).
Qed.

Print Assumptions molecules_accounted.
Print Assumptions molecule_ops_total.
Print Assumptions molecule_enumeration.
Print Assumptions return_in_system_refuted.
