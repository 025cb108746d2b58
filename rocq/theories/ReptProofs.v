(** Lemmas for ReptProps. *)
From stdpp Require Import gmap.
From Verif Require Import Base Vec3 BoxSpec McCellModel DomainModel SpeciesModel SpeciesProofs CellListModel CellListSpec CellListProofs
  PairListModel PairListSpec EnergyModel EnergySpec EnergyProofs MoveModel MoveSpec MoveProofs CfbModel CfbSpec CfbProofs CfbSteps ReptModel ReptSpec.
From Coq Require Import Reals Lra.
Local Open Scope R_scope.

Lemma without_in A e a : a ∈ without A e <-> a ∈ A /\ a <> e.
Proof. unfold without. rewrite elem_of_list_In, filter_In, <- elem_of_list_In, negb_true_iff, bool_decide_eq_false. done. Qed.
Lemma without_nodup A e : NoDup A -> NoDup (without A e).
Proof. intros H. unfold without. apply NoDup_ListNoDup, List.NoDup_filter. by apply NoDup_ListNoDup. Qed.
Lemma without_perm A e : NoDup A -> e ∈ A -> A ≡ₚ e :: without A e.
Proof.
  intros H He. apply NoDup_Permutation; [done| |].
  - apply NoDup_cons. split; [|by apply without_nodup]. rewrite without_in. tauto.
  - intros a. rewrite elem_of_cons, without_in. destruct (decide (a = e)) as [->|]; tauto.
Qed.
Lemma rem_without A e : remaining A [e] 0 = without A e.
Proof.
  unfold remaining, without. apply List.filter_ext. intros a. f_equal. cbn [drop]. apply bool_decide_ext. by rewrite elem_of_list_singleton.
Qed.

(** ** Relabelling *)
Lemma relabel dist2 u ext (p : nat -> nat) S T m m' pos pos' ty ty' :
  NoDup S -> map p S ≡ₚ T -> (forall a b, a ∈ S -> b ∈ S -> p a = p b -> a = b) ->
  (forall i j, m i j = m j i) -> (forall i j, m' i j = m' j i) -> (forall r q, dist2 r q = dist2 q r) -> (forall r t1 t2, u r t1 t2 = u r t2 t1) ->
  (forall a, a ∈ S -> pos' a = pos (p a)) -> (forall a, a ∈ S -> ty' a = ty (p a)) -> (forall a b, a ∈ S -> b ∈ S -> m' a b = m (p a) (p b)) ->
  site_energy dist2 m' u ext S pos' ty' = site_energy dist2 m u ext T pos ty.
Proof.
  intros HS HT Hinj Hm Hm' Hd Hu Ep Et Em. unfold site_energy. f_equal.
  - change (half_pairs S (w dist2 m' u pos' ty') = half_pairs T (w dist2 m u pos ty)).
    assert (2 * half_pairs S (w dist2 m' u pos' ty') = 2 * half_pairs T (w dist2 m u pos ty)); [|lra].
    rewrite <- !all_half by (intros; by apply w_sym). unfold all_pairs.
    rewrite <- (sum_perm _ _ _ HT), sum_map. apply sum_ext. intros i Hi. rewrite <- (sum_perm _ _ _ HT), sum_map. apply sum_ext. intros j Hj.
    destruct (decide (i = j)) as [->|Hne]; [by rewrite decide_True|]. rewrite decide_False by (intros E; by apply Hne, Hinj).
    unfold w. by rewrite Em, !Ep, !Et by done.
  - unfold external_energy. rewrite <- (sum_perm _ _ _ HT), sum_map. apply sum_ext. intros a Ha. by rewrite Ep, Et.
Qed.
Lemma site_ext dist2 u ext S m m' pos pos' ty ty' :
  (forall a, a ∈ S -> pos' a = pos a) -> (forall a, a ∈ S -> ty' a = ty a) -> (forall a b, a ∈ S -> b ∈ S -> m' a b = m a b) ->
  site_energy dist2 m' u ext S pos' ty' = site_energy dist2 m u ext S pos ty.
Proof.
  intros Ep Et Em. unfold site_energy. f_equal.
  - unfold pair_energy. apply sum_ext. intros i Hi. apply sum_ext. intros j Hj. by rewrite Em, !Ep, !Et.
  - unfold external_energy. apply sum_ext. intros i Hi. by rewrite Ep, Et.
Qed.

(** ** The chain *)
Section Chain.
  Context (c : list nat) (Hcd : NoDup c) (Hn : (2 <= length c)%nat).
  Local Notation N := (length c).
  Local Notation at_ := (nth_atom c).
  Local Notation tail := (nth_atom c 0).
  Local Notation head := (nth_atom c (length c - 1)).

  Lemma rep_at {T} (f : nat -> T) x i : (i < N)%nat -> reptated c f x (at_ i) = if decide (S i < N)%nat then f (at_ (S i)) else x.
  Proof. intros Hi. unfold reptated. by rewrite (find_lookup c i (at_ i) Hcd (nth_in c i Hi)). Qed.
  Lemma rep_out {T} (f : nat -> T) x a : a ∉ c -> reptated c f x a = f a.
  Proof.
    intros Ha. unfold reptated. destruct (list_find _ c) as [[i b]|] eqn:E; [|done].
    apply list_find_Some in E as (Hi & -> & _). exfalso. apply Ha. by eapply elem_of_list_lookup_2.
  Qed.
  Lemma at_of a : a ∈ c -> exists i, (i < N)%nat /\ a = at_ i.
  Proof. intros Ha. apply elem_of_list_lookup in Ha as [i Hi]. pose proof (lookup_lt_Some _ _ _ Hi). exists i. split; [done|]. rewrite nth_in in Hi by done. by injection Hi. Qed.
  Lemma at_ne i j : (i < N)%nat -> (j < N)%nat -> i <> j -> at_ i <> at_ j.
  Proof. intros Hi Hj Hne E. by apply nth_inj in E. Qed.
  Definition nxt (a : nat) : nat := reptated c (fun x => x) tail a.
  Lemma nxt_at i : (i < N)%nat -> nxt (at_ i) = if decide (S i < N)%nat then at_ (S i) else tail.
  Proof. apply rep_at. Qed.
  Lemma nxt_out a : a ∉ c -> nxt a = a.
  Proof. apply rep_out. Qed.
  Lemma rep_nxt {T} (f : nat -> T) x a : reptated c f x a = (if decide (nxt a = tail) then x else f (nxt a)).
  Proof.
    destruct (decide (a ∈ c)) as [Ha|Ha].
    - destruct (at_of a Ha) as (i & Hi & ->). rewrite rep_at, nxt_at by done. destruct (decide (S i < N)%nat).
      + rewrite decide_False; [done|]. apply at_ne; lia.
      + by rewrite decide_True.
    - rewrite rep_out, nxt_out by done. rewrite decide_False; [done|]. intros ->. apply Ha, nth_elem. lia.
  Qed.
  Lemma nxt_tail a : nxt a = tail <-> a = head.
  Proof.
    split.
    - intros E. destruct (decide (a ∈ c)) as [Ha|Ha].
      + destruct (at_of a Ha) as (i & Hi & ->). rewrite nxt_at in E by done. destruct (decide (S i < N)%nat).
        * apply nth_inj in E; [lia|done|lia..].
        * f_equal. lia.
      + rewrite nxt_out in E by done. subst a. exfalso. apply Ha, nth_elem. lia.
    - intros ->. rewrite nxt_at by lia. by rewrite decide_False by lia.
  Qed.
  Lemma nxt_in a : nxt a ∈ c <-> a ∈ c.
  Proof.
    destruct (decide (a ∈ c)) as [Ha|Ha]; [|by rewrite nxt_out].
    split; [done|]. intros _. destruct (at_of a Ha) as (i & Hi & ->). rewrite nxt_at by done. destruct (decide _); apply nth_elem; lia.
  Qed.
  Lemma nxt_inj a b : nxt a = nxt b -> a = b.
  Proof.
    intros E. destruct (decide (a ∈ c)) as [Ha|Ha].
    - assert (b ∈ c) as Hb by (apply nxt_in; rewrite <- E; by apply nxt_in).
      destruct (at_of a Ha) as (i & Hi & ->), (at_of b Hb) as (j & Hj & ->). rewrite !nxt_at in E by done.
      destruct (decide (S i < N)%nat), (decide (S j < N)%nat); apply nth_inj in E; try done; try lia; f_equal; lia.
    - assert (b ∉ c) as Hb by (intros Hb; apply Ha, nxt_in; rewrite E; by apply nxt_in). by rewrite !nxt_out in E.
  Qed.
  Lemma nxt_surj a : exists b, nxt b = a /\ (b ∈ c <-> a ∈ c).
  Proof.
    destruct (decide (a ∈ c)) as [Ha|Ha].
    - destruct (at_of a Ha) as (i & Hi & ->). destruct i as [|i].
      + exists head. split; [by apply nxt_tail|]. split; intros _; apply nth_elem; lia.
      + exists (at_ i). rewrite nxt_at by lia. rewrite decide_True by done. split; [done|]. split; intros _; apply nth_elem; lia.
    - exists a. by rewrite nxt_out.
  Qed.
  Context (A : list nat) (HA : NoDup A) (HcA : c ⊆ A).
  Lemma nxt_A a : nxt a ∈ A <-> a ∈ A.
  Proof.
    destruct (decide (a ∈ c)) as [Ha|Ha]; [|by rewrite nxt_out]. split; intros _; apply HcA; [done|by apply nxt_in].
  Qed.
  Lemma nxt_perm : map nxt A ≡ₚ A.
  Proof.
    apply NoDup_Permutation; [|done|].
    - apply NoDup_fmap_2; [|done]. intros x y. apply nxt_inj.
    - intros a. rewrite elem_of_list_fmap. split; [intros (b & -> & Hb); by apply nxt_A|]. intros Ha. destruct (nxt_surj a) as (b & <- & _). exists b. split; [done|]. by apply nxt_A.
  Qed.
  Lemma nxt_perm_without : map nxt (without A head) ≡ₚ without A tail.
  Proof.
    apply NoDup_Permutation; [| by apply without_nodup|].
    - apply NoDup_fmap_2; [|by apply without_nodup]. intros x y. apply nxt_inj.
    - intros a. rewrite elem_of_list_fmap, without_in. split.
      + intros (b & -> & Hb). apply without_in in Hb as [Hb Hne]. rewrite nxt_A. split; [done|]. by rewrite nxt_tail.
      + intros [Ha Hne]. destruct (nxt_surj a) as (b & <- & _). exists b. split; [done|]. apply without_in. rewrite <- nxt_A. split; [done|]. intros E. apply Hne. by apply nxt_tail.
  Qed.

  (** Masks while the tail is the new head. *)
  Context (bonded : bool) (masked : nat -> nat -> bool) (Hmask : chain_masks bonded masked c).
  Definition mid_mask (a b : nat) : bool :=
    if decide (a = tail) then bonded && bool_decide (b = head) else if decide (b = tail) then bonded && bool_decide (a = head) else masked a b.
  Lemma mask_at i j : (i < N)%nat -> (j < N)%nat -> masked (at_ i) (at_ j) = bonded && bool_decide (j = S i \/ i = S j).
  Proof.
    intros Hi Hj. destruct Hmask as [_ H]. specialize (H i (at_ j) Hi). apply eq_true_iff_eq. rewrite H, andb_true_iff, bool_decide_eq_true. split.
    - intros [-> (k & Hk & E & Hor)]. split; [done|]. apply nth_inj in E; [|done..]. subst k. done.
    - intros [-> Hor]. split; [done|]. by exists j.
  Qed.
  Lemma mask_out i b : (i < N)%nat -> b ∉ c -> masked (at_ i) b = false.
  Proof.
    intros Hi Hb. destruct Hmask as [_ H]. apply not_true_is_false. rewrite H by done. intros (_ & k & Hk & -> & _). apply Hb. by apply nth_elem.
  Qed.
  Lemma mid_sym a b : mid_mask a b = mid_mask b a.
  Proof.
    unfold mid_mask. destruct Hmask as [Hs _]. destruct (decide (a = tail)) as [->|Ha], (decide (b = tail)) as [->|Hb]; done.
  Qed.
  Lemma mid_nxt a b : masked a b = mid_mask (nxt a) (nxt b).
  Proof.
    assert (forall i b, (i < N)%nat -> b ∉ c -> masked (at_ i) b = mid_mask (nxt (at_ i)) b) as Hio.
    { intros i b0 Hi Hb. rewrite mask_out by done. unfold mid_mask. rewrite nxt_at by done. assert (b0 <> tail) as H0 by (intros ->; apply Hb, nth_elem; lia).
      assert (b0 <> head) as H1 by (intros ->; apply Hb, nth_elem; lia).
      destruct (decide (S i < N)%nat).
      - rewrite decide_False by (apply at_ne; lia). rewrite decide_False by done. by rewrite mask_out.
      - rewrite decide_True by done. rewrite bool_decide_eq_false_2 by done. by rewrite andb_false_r. }
    destruct (decide (a ∈ c)) as [Ha|Ha], (decide (b ∈ c)) as [Hb|Hb].
    - destruct (at_of a Ha) as (i & Hi & ->), (at_of b Hb) as (j & Hj & ->). rewrite mask_at by done. unfold mid_mask. rewrite !nxt_at by done.
      destruct (decide (S i < N)%nat), (decide (S j < N)%nat).
      + rewrite !decide_False by (apply at_ne; lia). rewrite mask_at by lia. f_equal. apply bool_decide_ext. lia.
      + rewrite decide_False by (apply at_ne; lia). rewrite decide_True by done. f_equal. apply bool_decide_ext. split.
        * intros Hor. f_equal. lia.
        * intros E. apply nth_inj in E; [|done|lia..]. lia.
      + rewrite decide_True by done. f_equal. apply bool_decide_ext. split.
        * intros Hor. f_equal. lia.
        * intros E. apply nth_inj in E; [|done|lia..]. lia.
      + rewrite decide_True by done. f_equal. apply bool_decide_ext. split; [lia|]. intros E. apply nth_inj in E; [|done|lia..]. lia.
    - destruct (at_of a Ha) as (i & Hi & ->). rewrite (nxt_out b Hb). by apply Hio.
    - destruct (at_of b Hb) as (j & Hj & ->). rewrite (nxt_out a Ha), mid_sym. destruct Hmask as [Hs _]. rewrite Hs. by apply Hio.
    - rewrite !nxt_out by done. unfold mid_mask. rewrite !decide_False; [done|..]; intros ->; [apply Hb|apply Ha]; apply nth_elem; lia.
  Qed.
  Lemma mask_shift a b : a <> head -> b <> head -> masked a b = masked (nxt a) (nxt b).
  Proof. intros Ha Hb. rewrite mid_nxt. unfold mid_mask. by rewrite !decide_False by (by rewrite nxt_tail). Qed.
End Chain.

Lemma chain_masks_rev bonded masked c : chain_masks bonded masked c -> chain_masks bonded masked (rev c).
Proof.
  intros [H1 H2]. split; [done|]. intros i b. rewrite rev_length. intros Hi.
  assert (forall j, (j < length c)%nat -> nth_atom (rev c) j = nth_atom c (length c - 1 - j)) as E.
  { intros j Hj. unfold nth_atom. rewrite rev_nth by done. f_equal. lia. }
  rewrite E, H2 by lia. split; (intros [-> (k & Hk & -> & Hor)]; split; [done|]; exists (length c - 1 - k)%nat; split; [lia|]; split; [|lia]).
  - rewrite E by lia. f_equal. lia.
  - by rewrite E.
Qed.
