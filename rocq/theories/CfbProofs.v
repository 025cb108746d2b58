(** Lemmas for CfbProps. *)
From stdpp Require Import gmap.
From Verif Require Import Base Vec3 BoxSpec McCellModel DomainModel SpeciesModel SpeciesProofs CellListModel CellListSpec CellListProofs
  PairListModel PairListSpec EnergyModel EnergySpec EnergyProofs MoveModel MoveSpec MoveProofs CfbModel CfbSpec.
From Coq Require Import Reals Lra.
Local Open Scope R_scope.

(** ** Adding one atom to a part of the system *)
Lemma half_cons a S f : a ∉ S -> (forall i j, f i j = f j i) -> half_pairs (a :: S) f = half_pairs S f + sum_over S (f a).
Proof.
  intros Ha Hs. unfold half_pairs. rewrite !sum_cons. rewrite decide_False by lia. rewrite Rplus_0_l.
  rewrite (sum_ext (fun i => sum_over (a :: S) _) (fun i => (if decide (i < a)%nat then f i a else 0) + sum_over S (fun j => if decide (i < j)%nat then f i j else 0))).
  2:{ intros i _. by rewrite sum_cons. }
  rewrite EnergyProofs.sum_plus.
  rewrite (sum_ext (f a) (fun j => (if decide (a < j)%nat then f a j else 0) + (if decide (j < a)%nat then f j a else 0))).
  - rewrite EnergyProofs.sum_plus. ring.
  - intros j Hj. assert (j <> a) by (by intros ->). destruct (decide (a < j)%nat), (decide (j < a)%nat); try lia; [ring|]. rewrite Hs. ring.
Qed.
Lemma half_permut S T f : S ≡ₚ T -> half_pairs S f = half_pairs T f.
Proof. intros H. unfold half_pairs. rewrite (sum_perm _ _ _ H). apply sum_ext. intros i _. by apply sum_perm. Qed.

(** ** Cell lists that hold a part of the system *)
Section Hold.
  Context (M cap : nat) (HM : (2 <= M)%nat) (toGen : vec3 R -> vec3 R) (lens : vec3 R) (cut : R) (n : vec3 Z).
  Context (HL : positive3 lens) (Hc : 0 < cut) (HG : grid_of lens cut n).
  Local Notation hold := (holding M cap toGen lens cut n).

  Lemma holding_mem A A' l Q : (forall a, a ∈ A <-> a ∈ A') -> hold A l Q -> hold A' l Q.
  Proof.
    intros E (l0 & l1 & ops & H1 & H2 & H3 & H4 & H5). exists l0, l1, ops. split_and!; [done..|].
    intros a. rewrite H5. by apply decide_ext.
  Qed.
  Lemma holding_cap A l Q a : hold A l Q -> a ∈ A -> (a < cap)%nat.
  Proof.
    intros H Ha. destruct (holding_clinv M cap HM toGen lens cut n A HL Hc HG l Q H) as (h & I & Hh).
    apply (ci_prim _ _ _ _ _ _ I a (Q a)). rewrite Hh. by rewrite decide_True.
  Qed.
  Lemma holding_delete A A' l Q a : hold A l Q -> a ∈ A -> (forall b, b ∈ A' <-> b ∈ A /\ b <> a) ->
    exists l', cl_delete l a = Ok l' /\ hold A' l' Q.
  Proof.
    intros H Ha E. destruct (holding_clinv M cap HM toGen lens cut n A HL Hc HG l Q H) as (h & I & Hh).
    destruct H as (l0 & l1 & ops & H1 & H2 & H3 & H4 & H5).
    assert (h = holds ops) as Eh. { apply map_eq. intros b. by rewrite Hh, H5. }
    assert (is_Some (h !! a)) as Hs by (rewrite Hh, decide_True by done; eauto).
    destruct (clinv_del M cap HM toGen n l h a I Hs) as (l' & Hl' & _). exists l'. split; [done|].
    exists l0, l1, (ops ++ [CDel a]). split_and!; [done|done| | |].
    - apply cl_proper_app. split; [done|]. cbn [cl_proper]. fold (holds ops). rewrite <- Eh. done.
    - rewrite run_app, H4. cbn [obind run cl_step]. by rewrite Hl'.
    - intros b. unfold holds. rewrite fold_left_app. cbn [fold_left at_step]. fold (holds ops). destruct (decide (b = a)) as [->|Hne].
      + rewrite lookup_delete, decide_False; [done|]. rewrite E. tauto.
      + rewrite lookup_delete_ne by done. rewrite H5. apply decide_ext. rewrite E. tauto.
  Qed.
  Lemma holding_add A A' l Q a p : hold A' l Q -> a ∉ A' -> (forall b, b ∈ A <-> b ∈ A' \/ b = a) -> (a < cap)%nat -> primary (toGen p) ->
    ~ crowded toGen n (M - 1) A (move Q a p) -> exists l', cl_add M toGen l a p = Ok l' /\ hold A l' (move Q a p).
  Proof.
    intros H Ha E Hcap Hp Hu. destruct (holding_clinv M cap HM toGen lens cut n A' HL Hc HG l Q H) as (h & I & Hh).
    destruct H as (l0 & l1 & ops & H1 & H2 & H3 & H4 & H5).
    assert (h = holds ops) as Eh. { apply map_eq. intros b. by rewrite Hh, H5. }
    assert (h !! a = None) as Hs by (rewrite Hh, decide_False by done; done).
    assert (room toGen n (M - 2) h (toGen p)) as Hr.
    { intros ks Hnd Hks. destruct (decide (length ks <= M - 2)%nat) as [|Hlong]; [done|]. exfalso. apply Hu.
      pose proof (ci_wf _ _ _ _ _ _ I) as W.
      set (c := ccell n (toGen p)). assert (Hin : forall g c', primary g -> in_cell n c' g -> c' = ccell n g).
      { intros g [x y z] Hg Hi. unfold ccell. f_equal; symmetry.
        - apply (in_cell_axis _ x _ (g_pos _ _ W 0%nat ltac:(lia))); [apply (Hg 0%nat ltac:(lia))|apply (Hi 0%nat ltac:(lia))].
        - apply (in_cell_axis _ y _ (g_pos _ _ W 1%nat ltac:(lia))); [apply (Hg 1%nat ltac:(lia))|apply (Hi 1%nat ltac:(lia))].
        - apply (in_cell_axis _ z _ (g_pos _ _ W 2%nat ltac:(lia))); [apply (Hg 2%nat ltac:(lia))|apply (Hi 2%nat ltac:(lia))]. }
      assert (Hinc : in_cell n c (toGen p)).
      { intros i Hi. apply in_cell_axis; [by apply W|by apply Hp|]. destruct i as [|[|[|]]]; try lia; done. }
      assert (a ∉ ks) as Hak. { intros Hin'. destruct (Hks a Hin') as (q & Hq & _). congruence. }
      exists c, (a :: ks). split_and!.
      - apply NoDup_cons. done.
      - intros b Hb. apply E. apply elem_of_cons in Hb as [->|Hb]; [by right|]. left. destruct (Hks b Hb) as (q & Hq & _).
        rewrite Hh in Hq. by destruct (decide (b ∈ A')).
      - intros b Hb. apply elem_of_cons in Hb as [->|Hb]; [by rewrite move_eq|].
        assert (b <> a) as Hne by (by intros ->). rewrite move_ne by done.
        destruct (Hks b Hb) as (q & Hq & c' & Hcq & Hcp). rewrite Hh in Hq.
        destruct (decide (b ∈ A')); [|done]. injection Hq as ->. apply Hin in Hcp; [|done]. subst c'. done.
      - cbn. lia. }
    destruct (clinv_add M cap HM toGen n l h a p I Hcap Hs Hp Hr) as (l' & Hl' & _). exists l'. split; [done|].
    exists l0, l1, (ops ++ [CAdd a p]). split_and!; [done|done| | |].
    - apply cl_proper_app. split; [done|]. cbn [cl_proper]. fold (holds ops). rewrite <- Eh. done.
    - rewrite run_app, H4. cbn [obind run cl_step]. by rewrite Hl'.
    - intros b. unfold holds. rewrite fold_left_app. cbn [fold_left at_step]. fold (holds ops). unfold move. destruct (decide (b = a)) as [->|Hne].
      + rewrite lookup_insert, decide_True; [done|]. apply E. by right.
      + rewrite lookup_insert_ne by done. rewrite H5. apply decide_ext. rewrite E. tauto.
  Qed.
End Hold.

(** ** Chains *)
Lemma nth_in c i : (i < length c)%nat -> c !! i = Some (nth_atom c i).
Proof. intros H. unfold nth_atom. destruct (nth_lookup_or_length c i 0%nat) as [E|]; [done|lia]. Qed.
Lemma nth_inj c i j : NoDup c -> (i < length c)%nat -> (j < length c)%nat -> nth_atom c i = nth_atom c j -> i = j.
Proof. intros Hn Hi Hj E. apply (NoDup_lookup c i j (nth_atom c i)); [done|by apply nth_in|]. rewrite E. by apply nth_in. Qed.
Lemma nth_elem c i : (i < length c)%nat -> nth_atom c i ∈ c.
Proof. intros H. eapply elem_of_list_lookup_2. by apply nth_in. Qed.
Lemma take_three c i : (i + 2 < length c)%nat -> take 3 (drop i c) = [nth_atom c i; nth_atom c (i + 1); nth_atom c (i + 2)].
Proof.
  intros H. rewrite (drop_S c (nth_atom c i) i) by (apply nth_in; lia). rewrite (drop_S c (nth_atom c (i + 1)) (S i)) by (replace (S i) with (i + 1)%nat by lia; apply nth_in; lia).
  rewrite (drop_S c (nth_atom c (i + 2)) (S (S i))) by (replace (S (S i)) with (i + 2)%nat by lia; apply nth_in; lia). done.
Qed.
Lemma elem_drop c i : NoDup c -> (i < length c)%nat -> forall j, nth_atom c i ∈ drop j c <-> (j <= i)%nat.
Proof.
  intros Hn Hi j. split.
  - intros Hin. destruct (decide (j <= i)%nat); [done|]. exfalso. apply elem_of_list_lookup in Hin as [k Hk]. rewrite lookup_drop in Hk.
    assert (j + k = i)%nat; [|lia]. apply (NoDup_lookup c _ _ (nth_atom c i) Hn Hk). by apply nth_in.
  - intros Hj. apply elem_of_list_lookup. exists (i - j)%nat. rewrite lookup_drop. replace (j + (i - j))%nat with i by lia. by apply nth_in.
Qed.
Lemma fold_last {A B} (f : option B -> A -> option B) (l : list A) (x : B) :
  (forall g, g ∈ l -> (forall acc, f acc g = acc) \/ (forall acc, f acc g = Some x)) -> (exists g, g ∈ l /\ forall acc, f acc g = Some x) ->
  forall acc, fold_left f l acc = Some x.
Proof.
  intros H1 H2. assert (Hs : fold_left f l (Some x) = Some x).
  { clear H2. induction l as [|g l IH]; [done|]. cbn [fold_left]. destruct (H1 g ltac:(left)) as [E|E]; rewrite E; apply IH; intros; apply H1; by right. }
  induction l as [|g l IH]; intros acc; [destruct H2 as (g & []%elem_of_nil & _)|]. cbn [fold_left].
  destruct (H1 g ltac:(left)) as [E|E].
  - rewrite E. cbn [fold_left] in Hs. rewrite E in Hs. apply IH; [intros; apply H1; by right| |done].
    destruct H2 as (g' & [->|Hg']%elem_of_cons & E'); [|by eauto]. specialize (E None). rewrite E' in E. done.
  - cbn [fold_left] in Hs. rewrite E in *. done.
Qed.
Lemma atom_angles_ok k a : (forall id, id ∈ kIds k a -> is_Some (kGrp k (kMolOf k a) !! id)) ->
  exists gs, atom_angles k a = Ok gs /\ forall g, g ∈ gs <-> exists id, id ∈ kIds k a /\ kGrp k (kMolOf k a) !! id = Some g.
Proof.
  unfold atom_angles. intros H. cut (forall acc, exists gs, foldM (fun acc id => let? g := aget (kGrp k (kMolOf k a)) id in Ok (acc ++ [g])) acc (kIds k a) = Ok gs /\
    forall g, g ∈ gs <-> g ∈ acc \/ exists id, id ∈ kIds k a /\ kGrp k (kMolOf k a) !! id = Some g).
  { intros X. destruct (X []) as (gs & E & Hgs). exists gs. split; [done|]. intros g. rewrite Hgs. split; [intros [Y%elem_of_nil|]; done|by right]. }
  induction (kIds k a) as [|id ids IH]; intros acc; cbn [foldM].
  - exists acc. split; [done|]. intros g. split; [by left|]. intros [|(id & []%elem_of_nil & _)]; done.
  - destruct (H id ltac:(left)) as [g0 Hg0]. unfold aget at 1. rewrite Hg0. cbn [obind].
    destruct (IH ltac:(intros; apply H; by right) (acc ++ [g0])) as (gs & E & Hgs). exists gs. split; [done|]. intros g. rewrite Hgs. rewrite elem_of_app, elem_of_list_singleton.
    split.
    + intros [ [?| ->] |(i & Hi & E')]; [by left| |].
      * right. exists id. split; [left|done].
      * right. exists i. split; [by right|done].
    + intros [|(i & [->|Hi]%elem_of_cons & E')]; [tauto| |].
      * left. right. congruence.
      * right. eauto.
Qed.

(** Angles of a chain [c], all written in one direction. *)
Definition cangles (A c : list nat) (fw : bool) (k : gkind) : Prop :=
  kind_ok A k /\ exists m tt, m ∈ kMols k /\ (forall a, a ∈ c -> kMolOf k a = m) /\
    kGrp k m ≡ₚ map (fun i => Grp (if fw then take 3 (drop i c) else rev (take 3 (drop i c))) (tt i)) (seq 0 (length c - 2)).

Section Angle.
  Context (dist2 : vec3 R -> vec3 R -> R) (sep : vec3 R -> vec3 R -> vec3 R) (ap : angpot) (A c : list nat) (fw : bool).
  Context (Hd : forall r q, dist2 r q = dist2 q r) (Hsep : forall r q, sep r q = vscale (-1) (sep q r)).
  Context (Hk : cangles A c fw (apK ap)) (Hc : NoDup c) (HcA : c ⊆ A).

  Lemma angle_rev p0 p1 p2 t : angle_kE sep dist2 (apV ap) [p2; p1; p0] t = angle_kE sep dist2 (apV ap) [p0; p1; p2] t.
  Proof.
    cbn [angle_kE]. f_equal. rewrite (Hsep p1 p2), (Hsep p0 p1), (Hd p1 p2), (Hd p0 p1), (Rmult_comm (dist2 p2 p1)). f_equal.
    destruct (sep p2 p1), (sep p1 p0). unfold vdot, vscale. cbn. ring.
  Qed.

  Lemma cfb_angle_eq s j S T : (2 <= j < length c)%nat -> (forall a, a ∈ T <-> a ∈ S \/ a = nth_atom c j) ->
    (forall i, (i < length c)%nat -> nth_atom c i ∈ S <-> (i < j)%nat) ->
    cfb_angle dist2 sep (Some ap) s (nth_atom c j) (nth_atom c (j - 1)) =
      Ok (angle_energy dist2 sep (Some ap) T (sPos s) - angle_energy dist2 sep (Some ap) S (sPos s)).
  Proof.
    intros Hj HT HS. set (e := nth_atom c j). set (p := nth_atom c (j - 1)). set (q := nth_atom c (j - 2)). set (k := apK ap) in *.
    destruct Hk as ((Hnd & Hok) & m & tt & Hm & Hmol & Hgrp).
    set (grp := fun i => Grp (if fw then take 3 (drop i c) else rev (take 3 (drop i c))) (tt i)) in *.
    assert (e ∈ c) as Hec by (apply nth_elem; lia). pose proof (HcA e Hec) as HeA.
    destruct (Hok e HeA) as (_ & Hids & Hid & Hout). rewrite (Hmol e Hec) in *.
    assert (Hat : forall i, (i + 2 < length c)%nat -> gAt (grp i) = if fw then [nth_atom c i; nth_atom c (i + 1); nth_atom c (i + 2)] else [nth_atom c (i + 2); nth_atom c (i + 1); nth_atom c i]).
    { intros i Hi. cbn [grp gAt]. rewrite take_three by done. by destruct fw. }
    assert (Hmem : forall i a, (i + 2 < length c)%nat -> a ∈ gAt (grp i) <-> a = nth_atom c i \/ a = nth_atom c (i + 1) \/ a = nth_atom c (i + 2)).
    { intros i a Hi. rewrite Hat by done. destruct fw; rewrite !elem_of_cons, elem_of_nil; tauto. }
    set (V := angle_kE sep dist2 (apV ap) [sPos s q; sPos s p; sPos s e] (tt (j - 2)%nat)).
    assert (angle_energy dist2 sep (Some ap) T (sPos s) - angle_energy dist2 sep (Some ap) S (sPos s) = V) as ->.
    { unfold angle_energy. rewrite <- sum_minus. fold k. rewrite (sum_one _ (kMols k) m Hnd Hm).
      - rewrite <- sum_minus. rewrite (sum_perm _ _ _ Hgrp), sum_map. rewrite (sum_one _ _ (j - 2)%nat).
        + assert (j - 2 + 2 < length c)%nat as H2 by lia. pose proof (Hat _ H2) as EA. pose proof (fun a => Hmem _ a H2) as EM.
          replace (j - 2 + 1)%nat with (j - 1)%nat in * by lia. replace (j - 2 + 2)%nat with j in * by lia. fold q p e in EA, EM.
          rewrite decide_True. 2:{ apply Forall_forall. intros a [->|[->| ->]]%EM; apply HT; [left; apply HS; lia|left; apply HS; lia|by right]. }
          rewrite decide_False. 2:{ rewrite Forall_forall. intros X. specialize (X e (proj2 (EM e) ltac:(tauto))). apply HS in X; lia. }
          rewrite EA. cbn [grp gTy]. unfold V. destruct fw; cbn [map]; [ring|]. rewrite angle_rev. ring.
        + apply NoDup_seq.
        + apply elem_of_seq. lia.
        + intros i [_ Hi]%elem_of_seq Hne. assert (i + 2 < length c)%nat as H2 by lia.
          destruct (decide (Forall (fun a => a ∈ T) (gAt (grp i)))) as [HfT|HfT], (decide (Forall (fun a => a ∈ S) (gAt (grp i)))) as [HfS|HfS]; try ring.
          * exfalso. apply HfS. apply Forall_forall. intros a Ha. rewrite Forall_forall in HfT. destruct (proj1 (HT a) (HfT a Ha)) as [?| ->]; [done|]. exfalso.
            apply Hmem in Ha; [|done]. assert (nth_atom c (i + 2) ∈ T) as Hl by (apply HfT, Hmem; [done|tauto]).
            apply HT in Hl as [Hl|Hl]; [apply HS in Hl; [|lia]|apply nth_inj in Hl; [|done|lia|lia]; lia].
            destruct Ha as [Ha|[Ha|Ha]]; apply nth_inj in Ha; try done; lia.
          * exfalso. apply HfT. eapply Forall_impl; [exact HfS|]. intros a Ha. apply HT. by left.
      - intros m' Hm' Hne. rewrite <- sum_minus. apply sum_0. intros g Hg.
        assert (e ∉ gAt g) as Hn. { intros He. apply Hne. symmetry. by rewrite (Hout m' g Hm' Hg He). }
        destruct (decide (Forall (fun a => a ∈ T) (gAt g))) as [HfT|HfT], (decide (Forall (fun a => a ∈ S) (gAt g))) as [HfS|HfS]; try ring; exfalso.
        + apply HfS. apply Forall_forall. intros a Ha. rewrite Forall_forall in HfT. destruct (proj1 (HT a) (HfT a Ha)) as [?| ->]; done.
        + apply HfT. eapply Forall_impl; [exact HfS|]. intros a Ha. apply HT. by left. }
    unfold cfb_angle. fold k. destruct (atom_angles_ok k e) as (gs & -> & Hgs).
    { rewrite (Hmol e Hec). intros id (g & Hg & _)%Hid. eauto. }
    rewrite (Hmol e Hec) in Hgs. cbn [obind].
    assert (cfb_pivot2 gs e p = Some (q, tt (j - 2)%nat)) as ->.
    2:{ unfold V. cbn [angle_kE]. done. }
    assert (Hin : forall g, g ∈ gs -> exists i, (i + 2 < length c)%nat /\ g = grp i /\ e ∈ gAt g).
    { intros g (id & Hi & Hg)%Hgs. apply Hid in Hi as (g' & Hg' & He). assert (g' = g) as -> by congruence.
      apply elem_of_list_lookup_2 in Hg. rewrite Hgrp in Hg. apply elem_of_list_fmap in Hg as (i & -> & [_ Hi]%elem_of_seq). exists i. split; [lia|done]. }
    assert (Hset : forall acc, (fun acc g => match gAt g with [a0; a1; a2] => if decide (a1 = p) then Some (if decide (a0 = e) then a2 else a0, gTy g) else acc | _ => acc end) acc (grp (j - 2)%nat) = Some (q, tt (j - 2)%nat)).
    { intros acc. cbv beta. rewrite Hat by lia. replace (j - 2 + 1)%nat with (j - 1)%nat by lia. replace (j - 2 + 2)%nat with j by lia. fold q p e.
      destruct fw; rewrite decide_True by done; f_equal; f_equal.
      - rewrite decide_False; [done|]. intros X. apply nth_inj in X; try done; lia.
      - by rewrite decide_True. }
    unfold cfb_pivot2. apply fold_last.
    - intros g Hg. destruct (Hin g Hg) as (i & Hi & -> & He). destruct (decide (i = j - 2)%nat) as [->|Hne]; [right; apply Hset|left].
      intros acc. rewrite Hat by done. destruct fw; rewrite decide_False; try done; intros X; apply nth_inj in X; try done; lia.
    - exists (grp (j - 2)%nat). split; [|apply Hset].
      assert (grp (j - 2)%nat ∈ kGrp k m) as Hg. { rewrite Hgrp. apply elem_of_list_fmap. exists (j - 2)%nat. split; [done|]. apply elem_of_seq. lia. }
      apply elem_of_list_lookup in Hg as [id Hg]. apply Hgs. exists id. split; [|done]. apply Hid. exists (grp (j - 2)%nat). split; [done|].
      apply Hmem; [lia|]. right. right. unfold e. f_equal. lia.
  Qed.
  (** The second atom of a chain has no angle around the first. *)
  Lemma cfb_angle_second s : (2 <= length c)%nat -> cfb_angle dist2 sep (Some ap) s (nth_atom c 1) (nth_atom c 0) = UB.
  Proof.
    intros Hl. set (e := nth_atom c 1). set (p := nth_atom c 0). set (k := apK ap) in *. destruct Hk as ((Hnd & Hok) & m & tt & Hm & Hmol & Hgrp).
    assert (e ∈ c) as Hec by (apply nth_elem; lia). pose proof (HcA e Hec) as HeA. destruct (Hok e HeA) as (_ & Hids & Hid & Hout). rewrite (Hmol e Hec) in *.
    unfold cfb_angle. fold k. destruct (atom_angles_ok k e) as (gs & -> & Hgs).
    { rewrite (Hmol e Hec). intros id (g & Hg & _)%Hid. eauto. }
    rewrite (Hmol e Hec) in Hgs. cbn [obind].
    assert (forall g, g ∈ gs -> exists x y z, gAt g = [x; y; z] /\ y <> p) as Hin.
    { intros g (id & Hi & Hg)%Hgs. apply elem_of_list_lookup_2 in Hg. rewrite Hgrp in Hg. apply elem_of_list_fmap in Hg as (i & -> & [_ Hi']%elem_of_seq).
      cbn [gAt]. rewrite take_three by lia. assert (nth_atom c (i + 1) <> p) as Hne by (intros E; apply nth_inj in E; try done; lia). destruct fw; cbn; eauto 10. }
    assert (cfb_pivot2 gs e p = None) as ->; [|done]. unfold cfb_pivot2. clear Hgs. induction gs as [|g gs IH]; [done|]. cbn [fold_left].
    destruct (Hin g ltac:(left)) as (x & y & z & -> & Hne). rewrite decide_False by done. apply IH. intros. apply Hin. by right.
  Qed.
End Angle.
