From Verif Require Import Base SpeciesModel SpeciesSpec.
Local Open Scope Z_scope.

(** * Arrays described by a function of the index *)

Definition tab {A} (n : Z) (f : Z -> A) : list A := map f (seqZ 0 n).

Lemma tab_length {A} n (f : Z -> A) : length (tab n f) = Z.to_nat n.
Proof. unfold tab. by rewrite map_length, seqZ_length. Qed.
Lemma tab_lookup {A} n (f : Z -> A) (i : nat) : Z.of_nat i < n -> tab n f !! i = Some (f (Z.of_nat i)).
Proof.
  intros. unfold tab. rewrite list_lookup_fmap, lookup_seqZ_lt by lia. simpl. by rewrite Z.add_0_l.
Qed.
Lemma tab_lookup_Some {A} n (f : Z -> A) (i : nat) x : tab n f !! i = Some x <-> Z.of_nat i < n /\ x = f (Z.of_nat i).
Proof.
  split.
  - intros H. assert (Hi : (i < length (tab n f))%nat) by eauto using lookup_lt_Some.
    rewrite tab_length in Hi. rewrite tab_lookup in H by lia. injection H as <-. split; [lia|done].
  - intros [? ->]. by apply tab_lookup.
Qed.
Lemma tab_ext {A} n (f g : Z -> A) : (forall i, 0 <= i < n -> f i = g i) -> tab n f = tab n g.
Proof.
  intros H. unfold tab. apply map_ext_in. intros i Hi. apply H.
  apply elem_of_list_In, elem_of_seqZ in Hi. lia.
Qed.
Lemma replicate_tab {A} n (x : A) : replicate (Z.to_nat n) x = tab n (fun _ => x).
Proof.
  apply list_eq. intros i. destruct (decide (Z.of_nat i < n)).
  - rewrite tab_lookup by lia. apply lookup_replicate. split; [done|lia].
  - rewrite !lookup_ge_None_2; [done|rewrite tab_length; lia|rewrite replicate_length; lia].
Qed.
Lemma zget_tab {A} n (f : Z -> A) i : 0 <= i < n -> zget (tab n f) i = Ok (f i).
Proof.
  intros. unfold zget. rewrite decide_True by lia. unfold aget. rewrite tab_lookup by lia.
  by rewrite Z2Nat.id by lia.
Qed.
Lemma zset_tab {A} n (f : Z -> A) i x : 0 <= i < n -> zset (tab n f) i x = Ok (tab n (fun j => if decide (j = i) then x else f j)).
Proof.
  intros. unfold zset. rewrite decide_True by lia. unfold aset. rewrite tab_length, decide_True by lia. f_equal.
  apply list_eq. intros j. destruct (decide (Z.of_nat j < n)).
  - rewrite tab_lookup by lia. destruct (decide (j = Z.to_nat i)) as [->|].
    + rewrite list_lookup_insert by (rewrite tab_length; lia). rewrite decide_True; [done|lia].
    + rewrite list_lookup_insert_ne by done. rewrite tab_lookup by lia. rewrite decide_False; [done|lia].
  - rewrite !lookup_ge_None_2; [done|rewrite tab_length; lia|rewrite insert_length, tab_length; lia].
Qed.

Lemma foldM_app {A S} (f : S -> A -> outcome S) l1 l2 s :
  foldM f s (l1 ++ l2) = (let? s := foldM f s l1 in foldM f s l2).
Proof. revert s. induction l1 as [|x l1 IH]; intros s; simpl; [done|]. destruct (f s x); simpl; auto. Qed.

Lemma seqZ_S n : 0 <= n -> seqZ 0 (n + 1) = seqZ 0 n ++ [n].
Proof. intros. rewrite seqZ_app by lia. f_equal. Qed.

(** * Building a table of groups *)

Lemma ids_append_tab M n (F : Z -> list Z) a b :
  0 <= a < n -> (length (F a) < M)%nat ->
  ids_append M (tab n F) a b = Ok (tab n (fun x => if decide (x = a) then F a ++ [b] else F x)).
Proof.
  intros Ha Hl. unfold ids_append. rewrite zget_tab by done. simpl. rewrite decide_False by lia. by apply zset_tab.
Qed.

Lemma ids_append_all M n b atoms : forall (F : Z -> list Z),
  NoDup atoms -> (forall a, a ∈ atoms -> 0 <= a < n /\ (length (F a) < M)%nat) ->
  foldM (fun ids a => ids_append M ids a b) (tab n F) atoms =
  Ok (tab n (fun x => if decide (x ∈ atoms) then F x ++ [b] else F x)).
Proof.
  induction atoms as [|a atoms IH]; intros F Hnd Ha; cbn [foldM].
  - f_equal. 
  - apply NoDup_cons in Hnd as [Hna Hnd].
    destruct (Ha a) as [Hr Hl]; [left|].
    rewrite ids_append_tab by done. cbn [obind]. rewrite IH; [|done|].
    + f_equal. apply tab_ext. intros x Hx.
      destruct (decide (x ∈ a :: atoms)) as [Hin|Hin].
      * apply elem_of_cons in Hin as [->|Hin].
        -- rewrite decide_False by done. by rewrite decide_True by done.
        -- rewrite decide_True by done. destruct (decide (x = a)) as [->|]; [done|done].
      * apply not_elem_of_cons in Hin as [? ?]. rewrite decide_False by done. by rewrite decide_False by done.
    + intros x Hx. destruct (Ha x) as [? ?]; [by right|]. split; [done|].
      rewrite decide_False; [done|]. intros ->. done.
Qed.

(** The groups that contain atom [a], among the first [m]. *)
Definition containing (atoms : Z -> list Z) (m a : Z) : list Z := filter (fun b => a ∈ atoms b) (seqZ 0 m).

Lemma containing_S atoms m a : 0 <= m ->
  containing atoms (m + 1) a = if decide (a ∈ atoms m) then containing atoms m a ++ [m] else containing atoms m a.
Proof.
  intros. unfold containing. rewrite seqZ_S by done. rewrite filter_app. rewrite filter_cons, filter_nil.
  case_decide; [done|]. by rewrite app_nil_r.
Qed.
Lemma containing_le atoms m m' a : 0 <= m <= m' -> (length (containing atoms m a) <= length (containing atoms m' a))%nat.
Proof.
  intros. unfold containing. replace m' with (m + (m' - m)) by lia. rewrite seqZ_app by lia.
  rewrite filter_app, app_length. lia.
Qed.
Lemma elem_of_containing atoms m a b : b ∈ containing atoms m a <-> 0 <= b < m /\ a ∈ atoms b.
Proof. unfold containing. rewrite elem_of_list_filter, elem_of_seqZ. intuition lia. Qed.
Lemma NoDup_containing atoms m a : NoDup (containing atoms m a).
Proof. apply NoDup_filter, NoDup_seqZ. Qed.

Definition built (nAtom n : Z) (atoms : Z -> list Z) (ty : Z -> Z) : gtab :=
  GT n (tab n (fun i => SG (atoms i) (ty i))) (tab nAtom (containing atoms n)).

Lemma make_loop k M nAtom n atoms ty :
  0 <= n ->
  (forall i, 0 <= i < n -> NoDup (atoms i) /\ forall a, a ∈ atoms i -> 0 <= a < nAtom) ->
  (forall a, 0 <= a < nAtom -> (length (containing atoms n a) <= M)%nat) ->
  foldM (fun g i => make_group M g i (atoms i) (ty i))
    (GT n (replicate (Z.to_nat n) (sg_new k)) (replicate (Z.to_nat nAtom) [])) (seqZ 0 n) =
  Ok (built nAtom n atoms ty).
Proof.
  intros Hn Hat HM. rewrite !replicate_tab.
  assert (H : forall m : nat, Z.of_nat m <= n ->
    foldM (fun g i => make_group M g i (atoms i) (ty i))
      (GT n (tab n (fun _ => sg_new k)) (tab nAtom (fun _ => []))) (seqZ 0 (Z.of_nat m)) =
    Ok (GT n (tab n (fun i => if decide (i < Z.of_nat m) then SG (atoms i) (ty i) else sg_new k))
             (tab nAtom (containing atoms (Z.of_nat m))))).
  { induction m as [|m IH]; intros Hm.
    - change (seqZ 0 (Z.of_nat 0)) with (@nil Z). cbn [foldM]. f_equal. f_equal. apply tab_ext. intros i Hi.
      rewrite decide_False by lia. done.
    - replace (Z.of_nat (S m)) with (Z.of_nat m + 1) by lia.
      rewrite seqZ_S by lia. rewrite foldM_app, IH by lia. cbn [obind foldM].
      unfold make_group. cbn [gtN gtGroups gtIds]. rewrite zset_tab by lia. cbn [obind].
      destruct (Hat (Z.of_nat m)) as [Hnd Hr]; [lia|].
      rewrite ids_append_all; [|done|].
      + cbn [obind]. f_equal. f_equal.
        * apply tab_ext. intros i Hi. destruct (decide (i = Z.of_nat m)) as [->|].
          -- rewrite decide_True by lia. done.
          -- destruct (decide (i < Z.of_nat m)).
             ++ by rewrite decide_True by lia.
             ++ by rewrite decide_False by lia.
        * apply tab_ext. intros a Ha. by rewrite containing_S by lia.
      + intros a Ha. split; [auto|]. specialize (Hr a Ha).
        specialize (HM a Hr).
        pose proof (containing_le atoms (Z.of_nat m + 1) n a ltac:(lia)) as Hle.
        rewrite containing_S, decide_True, app_length in Hle by (done || lia). simpl in Hle. lia. }
  specialize (H (Z.to_nat n)). rewrite Z2Nat.id in H by lia. rewrite H by lia. f_equal. unfold built. f_equal.
  apply tab_ext. intros i Hi. by rewrite decide_True by lia.
Qed.

Lemma built_ok k nAtom n atoms ty :
  0 <= n -> 0 <= nAtom ->
  (forall i, 0 <= i < n -> length (atoms i) = k /\ NoDup (atoms i) /\ forall a, a ∈ atoms i -> 0 <= a < nAtom) ->
  topology_ok k nAtom (built nAtom n atoms ty).
Proof.
  intros Hn HnA Hat. unfold built. constructor; cbn [gtN gtGroups gtIds].
  - rewrite tab_length. lia.
  - rewrite tab_length. lia.
  - intros b gr Hb. apply tab_lookup_Some in Hb as [? ->]. cbn [sgAtoms]. apply Hat. lia.
  - intros a l Hl. apply tab_lookup_Some in Hl as [? ->]. split; [apply NoDup_containing|].
    intros b. rewrite elem_of_containing. unfold contains. split.
    + intros [? ?]. eexists. split; [lia|]. split; [apply tab_lookup; lia|]. cbn. by rewrite Z2Nat.id by lia.
    + intros (g & ? & Hg & ?). apply tab_lookup_Some in Hg as [? ->]. rewrite Z2Nat.id in * by lia. cbn in *. split; [lia|done].
Qed.

(** * Counting: isValid accepts exactly the consistent tables *)

Lemma check_Ok b : check b = Ok () <-> b = true.
Proof. destruct b; cbn; split; congruence. Qed.
Lemma forM_Ok {A} (l : list A) f : forM l f = Ok () <-> forall x, x ∈ l -> f x = Ok ().
Proof.
  induction l as [|x l IH]; cbn [forM].
  - split; [intros _ x Hx; by apply elem_of_nil in Hx|done].
  - rewrite obind_Ok. split.
    + intros ([] & Hx & Hl). rewrite IH in Hl. intros y Hy. apply elem_of_cons in Hy as [->|Hy]; auto.
    + intros H. exists (). split; [apply H; left|]. apply IH. intros y Hy. apply H. by right.
Qed.

Definition pairs_of_groups (gs : list sgroup) : list (Z * Z) :=
  concat (imap (fun b g => map (fun a => (a, Z.of_nat b)) (sgAtoms g)) gs).
Definition pairs_of_lists (ids : list (list Z)) : list (Z * Z) :=
  concat (imap (fun a l => map (fun b => (Z.of_nat a, b)) l) ids).

Lemma elem_of_concat_imap {A B} (f : nat -> A -> list B) l x :
  x ∈ concat (imap f l) <-> exists i y, l !! i = Some y /\ x ∈ f i y.
Proof.
  rewrite elem_of_list_In, in_concat. split.
  - intros (s & Hs & Hx). apply elem_of_list_In in Hs. apply elem_of_lookup_imap in Hs as (i & y & -> & ?).
    exists i, y. split; [done|]. by apply elem_of_list_In.
  - intros (i & y & Hl & Hx). exists (f i y). split; [|by apply elem_of_list_In].
    apply elem_of_list_In, elem_of_lookup_imap. eauto.
Qed.

Lemma NoDup_concat_imap {A B} (f : nat -> A -> list B) l :
  (forall i y, l !! i = Some y -> NoDup (f i y)) ->
  (forall i j y z x, l !! i = Some y -> l !! j = Some z -> x ∈ f i y -> x ∈ f j z -> i = j) ->
  NoDup (concat (imap f l)).
Proof.
  revert f. induction l as [|y l IH]; intros f H1 H2; cbn; [constructor|].
  apply NoDup_app. split; [by apply (H1 O)|]. split.
  - intros x Hx Hx2. apply elem_of_concat_imap in Hx2 as (i & z & Hl & Hx2).
    specialize (H2 O (S i) y z x eq_refl Hl Hx Hx2). done.
  - apply IH.
    + intros i z Hl. by apply (H1 (S i)).
    + intros i j y' z x Hi Hj Hx Hx'. specialize (H2 (S i) (S j) _ _ x Hi Hj Hx Hx'). lia.
Qed.
Lemma NoDup_concat_imap_inv {A B} (f : nat -> A -> list B) l i y :
  NoDup (concat (imap f l)) -> l !! i = Some y -> NoDup (f i y).
Proof.
  revert f i. induction l as [|z l IH]; intros f i Hnd Hi; [done|]. cbn in Hnd.
  apply NoDup_app in Hnd as (H1 & _ & H2). destruct i as [|i]; cbn in Hi.
  - by injection Hi as ->.
  - by apply (IH (f ∘ S) i).
Qed.

Lemma length_pairs_of_groups k gs : Forall (fun g => length (sgAtoms g) = k) gs ->
  length (pairs_of_groups gs) = (k * length gs)%nat.
Proof.
  unfold pairs_of_groups. generalize 0%nat as n. intros n.
  assert (H : forall (f : nat -> nat), Forall (fun g => length (sgAtoms g) = k) gs ->
    length (concat (imap (fun b g => map (fun a => (a, Z.of_nat (f b))) (sgAtoms g)) gs)) = (k * length gs)%nat).
  { induction gs as [|g gs IH]; intros f Hf; cbn; [lia|]. inversion Hf as [|? ? Hk Hgs]; subst.
    rewrite app_length, map_length.
    pose proof (IH (f ∘ S) Hgs) as IHs. unfold compose in *. cbn in *. rewrite IHs. lia. }
  intros. by apply (H (fun b => b)).
Qed.

Lemma elem_of_pairs_of_groups gs a b : (a, b) ∈ pairs_of_groups gs <-> contains gs b a.
Proof.
  unfold pairs_of_groups, contains. rewrite elem_of_concat_imap. split.
  - intros (i & g & Hg & Hin). apply elem_of_list_fmap in Hin as (x & Heq & Hin). injection Heq as -> ->.
    exists g. rewrite Nat2Z.id. split; [lia|done].
  - intros (g & ? & Hg & Hin). exists (Z.to_nat b), g. split; [done|]. apply elem_of_list_fmap. exists a.
    rewrite Z2Nat.id by lia. done.
Qed.
Lemma elem_of_pairs_of_lists ids a b :
  (a, b) ∈ pairs_of_lists ids <-> exists l, 0 <= a /\ ids !! Z.to_nat a = Some l /\ b ∈ l.
Proof.
  unfold pairs_of_lists. rewrite elem_of_concat_imap. split.
  - intros (i & g & Hg & Hin). apply elem_of_list_fmap in Hin as (x & Heq & Hin). injection Heq as -> ->.
    exists g. rewrite Nat2Z.id. split; [lia|done].
  - intros (g & ? & Hg & Hin). exists (Z.to_nat a), g. split; [done|]. apply elem_of_list_fmap. exists b.
    rewrite Z2Nat.id by lia. done.
Qed.

Lemma NoDup_pairs_of_groups gs : Forall (fun g => NoDup (sgAtoms g)) gs -> NoDup (pairs_of_groups gs).
Proof.
  intros Hf. apply NoDup_concat_imap.
  - intros i g Hg. apply NoDup_fmap_2_strong; [congruence|]. rewrite Forall_lookup in Hf. eauto.
  - intros i j g g' [a b] _ _ H1 H2. apply elem_of_list_fmap in H1 as (? & [= -> ->] & _).
    apply elem_of_list_fmap in H2 as (? & [= -> ?] & _). lia.
Qed.
Lemma NoDup_pairs_of_lists ids : NoDup (pairs_of_lists ids) <-> Forall (fun l => NoDup l) ids.
Proof.
  split.
  - intros H. apply Forall_lookup. intros i l Hl.
    apply (NoDup_concat_imap_inv _ _ _ _ H) in Hl. by apply NoDup_fmap_1 in Hl.
  - intros Hf. apply NoDup_concat_imap.
    + intros i g Hg. apply NoDup_fmap_2_strong; [congruence|]. rewrite Forall_lookup in Hf. eauto.
    + intros i j g g' [a b] _ _ H1 H2. apply elem_of_list_fmap in H1 as (? & [= -> ->] & _).
      apply elem_of_list_fmap in H2 as (? & [= ? ->] & _). lia.
Qed.

(** the counting loop *)
Lemma count_inner gs N a l : Z.of_nat (length gs) = N -> forall c c',
  foldM (fun c b => let? _ := check (bool_decide (0 <= b < N)) in
                    let? gr := zget gs b in
                    let? _ := check (bool_decide (a ∈ sgAtoms gr)) in Ok (c + 1)) c l = Ok c' <->
  c' = c + Z.of_nat (length l) /\ forall b, b ∈ l -> contains gs b a.
Proof.
  intros HN. induction l as [|b l IH]; intros c c'; cbn [foldM].
  - cbn [length]. split.
    + intros [= <-]. split; [lia|]. intros b Hb. by apply elem_of_nil in Hb.
    + intros [-> _]. f_equal. lia.
  - rewrite obind_Ok. cbn [length]. split.
    + intros (c1 & H1 & Hl). apply obind_Ok in H1 as (u & Hb & Hrest). destruct u.
      apply check_Ok, bool_decide_eq_true in Hb.
      apply obind_Ok in Hrest as (gr & Hg & Hrest). apply obind_Ok in Hrest as ([] & Hc & [= <-]).
      apply check_Ok, bool_decide_eq_true in Hc. apply IH in Hl as [-> Hl]. split; [lia|].
      intros b' Hb'. apply elem_of_cons in Hb' as [->|Hb']; [|auto].
      unfold zget in Hg. rewrite decide_True in Hg by lia. apply aget_Ok in Hg. exists gr. split; [lia|done].
    + intros [-> Hall]. destruct (Hall b) as (g & Hb & Hg & Hin); [left|].
      exists (c + 1). split; [|apply IH; split; [lia|intros; apply Hall; by right]].
      apply obind_Ok. exists (). split.
      * apply check_Ok, bool_decide_eq_true. split; [done|]. apply lookup_lt_Some in Hg. lia.
      * apply obind_Ok. exists g. split; [unfold zget; rewrite decide_True by lia; by apply aget_Ok|].
        apply obind_Ok. exists (). split; [|done]. by apply check_Ok, bool_decide_eq_true.
Qed.

Lemma count_outer gs N ids : Z.of_nat (length gs) = N -> forall m c', (m <= length ids)%nat ->
  foldM (fun c a => let? l := zget ids a in
    foldM (fun c b => let? _ := check (bool_decide (0 <= b < N)) in
                    let? gr := zget gs b in
                    let? _ := check (bool_decide (a ∈ sgAtoms gr)) in Ok (c + 1)) c l) 0 (seqZ 0 (Z.of_nat m)) = Ok c' <->
  c' = Z.of_nat (length (pairs_of_lists (take m ids))) /\
  forall a b, (a, b) ∈ pairs_of_lists (take m ids) -> contains gs b a.
Proof.
  intros HN. induction m as [|m IH]; intros c' Hm.
  - change (seqZ 0 (Z.of_nat 0)) with (@nil Z). cbn. split; [intros [= <-]; split; [done|]; intros a b Hab; by apply elem_of_nil in Hab|intros [-> _]; done].
  - replace (Z.of_nat (S m)) with (Z.of_nat m + 1) by lia. rewrite seqZ_S, foldM_app by lia.
    destruct (lookup_lt_is_Some_2 ids m) as [l Hl]; [lia|].
    rewrite (take_S_r _ _ l Hl).
    assert (Hp : pairs_of_lists (take m ids ++ [l]) = pairs_of_lists (take m ids) ++ map (fun b => (Z.of_nat m, b)) l).
    { unfold pairs_of_lists. rewrite imap_app, concat_app. f_equal. cbn.
      rewrite app_nil_r. apply map_ext. intros b. f_equal. rewrite take_length. lia. }
    rewrite Hp, app_length, map_length.
    rewrite obind_Ok. cbn [foldM].
    assert (Hz : zget ids (Z.of_nat m) = Ok l).
    { unfold zget. rewrite decide_True by lia. apply aget_Ok. by rewrite Nat2Z.id. }
    rewrite Hz. cbn [obind]. split.
    + intros (c1 & H1 & H2). apply IH in H1 as [-> H1]; [|lia].
      apply obind_Ok in H2 as (c2 & H2 & [= <-]). apply count_inner in H2 as [-> H2]; [|done]. split; [lia|].
      intros a b Hab. apply elem_of_app in Hab as [Hab|Hab]; [auto|].
      apply elem_of_list_fmap in Hab as (b' & [= -> ->] & Hin). auto.
    + intros [-> Hall]. exists (Z.of_nat (length (pairs_of_lists (take m ids)))). split.
      * apply IH; [lia|]. split; [done|]. intros a b Hab. apply Hall. apply elem_of_app. by left.
      * apply obind_Ok. eexists. split; [|done]. apply count_inner; [done|]. split; [lia|].
        intros b Hb. apply Hall. apply elem_of_app. right. apply elem_of_list_fmap. eauto.
Qed.

(** the checks on one group *)
Lemma group_checks (k : nat) (nAtom : Z) (ids : list (list Z)) (b : Z) (atoms : list Z) : length atoms = k ->
  forM (seq 0 k) (fun p =>
          let? a := aget atoms p in
          let? _ := check (bool_decide (0 <= a < nAtom)) in
          let? _ := forM (seq (S p) (k - S p)) (fun q =>
            let? a2 := aget atoms q in check (bool_decide (a2 <> a))) in
          let? l := zget ids a in
          check (bool_decide (b ∈ l))) = Ok () <->
  NoDup atoms /\ (forall a, a ∈ atoms -> 0 <= a < nAtom) /\
  (forall a, a ∈ atoms -> exists l, zget ids a = Ok l /\ b ∈ l).
Proof.
  intros Hk. rewrite forM_Ok. split.
  - intros H.
    assert (Hp : forall p a, atoms !! p = Some a -> 0 <= a < nAtom /\
        (forall q a2, (p < q)%nat -> atoms !! q = Some a2 -> a2 <> a) /\ exists l, zget ids a = Ok l /\ b ∈ l).
    { intros p a Hpa. assert (Hlt := lookup_lt_Some _ _ _ Hpa).
      specialize (H p ltac:(apply elem_of_seq; lia)).
      apply obind_Ok in H as (a' & Ha' & H). apply aget_Ok in Ha'. assert (a' = a) by congruence. subst a'.
      apply obind_Ok in H as ([] & Hc & H). apply check_Ok, bool_decide_eq_true in Hc.
      apply obind_Ok in H as ([] & Hf & H). rewrite forM_Ok in Hf.
      apply obind_Ok in H as (l & Hl & H). apply check_Ok, bool_decide_eq_true in H.
      split; [done|]. split; [|eauto].
      intros q a2 Hq Ha2. assert (Hlq := lookup_lt_Some _ _ _ Ha2).
      specialize (Hf q ltac:(apply elem_of_seq; lia)). apply obind_Ok in Hf as (a2' & Ha2' & Hf).
      apply aget_Ok in Ha2'. apply check_Ok, bool_decide_eq_true in Hf. congruence. }
    split; [|split].
    + apply NoDup_alt. intros i j x Hi Hj. destruct (decide (i = j)) as [|Hne]; [done|].
      destruct (decide (i < j)%nat).
      * destruct (Hp _ _ Hi) as (_ & Hd & _). by destruct (Hd _ _ ltac:(eassumption) Hj).
      * destruct (Hp _ _ Hj) as (_ & Hd & _). destruct (Hd i x); [lia|done|done].
    + intros a Ha. apply elem_of_list_lookup in Ha as [i Hi]. by destruct (Hp _ _ Hi).
    + intros a Ha. apply elem_of_list_lookup in Ha as [i Hi]. by destruct (Hp _ _ Hi) as (_ & _ & ?).
  - intros (Hnd & Hr & Hl) p Hp. apply elem_of_seq in Hp.
    destruct (lookup_lt_is_Some_2 atoms p) as [a Ha]; [lia|].
    assert (Hin : a ∈ atoms) by eauto using elem_of_list_lookup_2.
    apply obind_Ok. exists a. split; [by apply aget_Ok|].
    apply obind_Ok. exists (). split; [apply check_Ok, bool_decide_eq_true; auto|].
    apply obind_Ok. exists (). split.
    + apply forM_Ok. intros q Hq. apply elem_of_seq in Hq.
      destruct (lookup_lt_is_Some_2 atoms q) as [a2 Ha2]; [lia|].
      apply obind_Ok. exists a2. split; [by apply aget_Ok|]. apply check_Ok, bool_decide_eq_true. intros ->.
      rewrite NoDup_alt in Hnd. specialize (Hnd _ _ _ Ha Ha2). lia.
    + destruct (Hl a Hin) as (l & Hz & Hb). apply obind_Ok. exists l. split; [done|].
      by apply check_Ok, bool_decide_eq_true.
Qed.

Lemma zget_Ok {A} (l : list A) i x : zget l i = Ok x <-> 0 <= i /\ l !! Z.to_nat i = Some x.
Proof.
  unfold zget. case_decide.
  - rewrite aget_Ok. intuition.
  - split; [done|]. intros [? ?]; lia.
Qed.

Theorem group_valid_iff k nAtom g :
  Forall (fun gr => length (sgAtoms gr) = k) (gtGroups g) -> 0 < gtN g -> 
  group_valid k nAtom g = Ok () <-> topology_ok k nAtom g.
Proof.
  intros Hk HN. unfold group_valid. rewrite decide_True by done. destruct g as [N gs ids]; cbn [gtN gtGroups gtIds] in *.
  split.
  - intros H. apply obind_Ok in H as ([] & Hlen & H). apply check_Ok, bool_decide_eq_true in Hlen.
    apply obind_Ok in H as ([] & Hidl & H). apply check_Ok, bool_decide_eq_true in Hidl.
    apply obind_Ok in H as ([] & Hg & H).
    apply obind_Ok in H as (c & Hc & H). apply check_Ok, bool_decide_eq_true in H. subst c.
    assert (Hgr : forall b gr, gs !! b = Some gr -> NoDup (sgAtoms gr) /\ (forall a, a ∈ sgAtoms gr -> 0 <= a < nAtom) /\
        (forall a, a ∈ sgAtoms gr -> exists l, zget ids a = Ok l /\ Z.of_nat b ∈ l)).
    { intros b gr Hb. rewrite forM_Ok in Hg. assert (Hlt := lookup_lt_Some _ _ _ Hb).
      specialize (Hg (Z.of_nat b) ltac:(apply elem_of_seqZ; lia)).
      apply obind_Ok in Hg as (gr' & Hz & Hg). apply zget_Ok in Hz as [_ Hz]. rewrite Nat2Z.id in Hz.
      assert (gr' = gr) by congruence. subst gr'.
      apply group_checks in Hg; [done|]. rewrite Forall_lookup in Hk. eauto. }
    rewrite <- Hidl in Hc.
    apply (count_outer gs N ids Hlen (length ids)) in Hc as [Hcount Hc]; [|lia].
    rewrite firstn_all in Hcount, Hc.
    assert (HndG : NoDup (pairs_of_groups gs)).
    { apply NoDup_pairs_of_groups, Forall_lookup. intros i gr Hi. by destruct (Hgr _ _ Hi). }
    assert (HndL : NoDup (pairs_of_lists ids)).
    { apply NoDup_ListNoDup. apply (List.NoDup_incl_NoDup (l := pairs_of_groups gs)).
      - by apply NoDup_ListNoDup.
      - rewrite (length_pairs_of_groups k) by done. lia.
      - intros [a b] Hab. apply elem_of_list_In in Hab. apply elem_of_list_In.
        apply elem_of_pairs_of_groups in Hab as (gr & Hb & Hgs & Ha).
        destruct (Hgr _ _ Hgs) as (_ & _ & Hl). destruct (Hl a Ha) as (l & Hz & Hbl).
        apply elem_of_pairs_of_lists. exists l. apply zget_Ok in Hz as [? ?]. rewrite Z2Nat.id in Hbl by lia. auto. }
    constructor; cbn [gtN gtGroups gtIds]; [done|done| |].
    + intros b gr Hb. destruct (Hgr _ _ Hb) as (? & ? & _). split; [|done]. rewrite Forall_lookup in Hk. eauto.
    + intros a l Hl. split.
      * apply NoDup_pairs_of_lists in HndL. rewrite Forall_lookup in HndL. eauto.
      * intros b. split.
        -- intros Hb. apply Hc. apply elem_of_pairs_of_lists. exists l. rewrite Nat2Z.id. auto with lia.
        -- intros (gr & Hb & Hgs & Ha). destruct (Hgr _ _ Hgs) as (_ & _ & Hz).
           destruct (Hz _ Ha) as (l' & Hl' & Hbl). apply zget_Ok in Hl' as [_ Hl']. rewrite Nat2Z.id in Hl'.
           rewrite Z2Nat.id in Hbl by lia. congruence.
  - intros [Hlen Hidl Hgr Hids]. cbn [gtN gtGroups gtIds] in *.
    apply obind_Ok. exists (). split; [by apply check_Ok, bool_decide_eq_true|].
    apply obind_Ok. exists (). split; [by apply check_Ok, bool_decide_eq_true|].
    apply obind_Ok. exists (). split.
    + apply forM_Ok. intros b Hb. apply elem_of_seqZ in Hb.
      destruct (lookup_lt_is_Some_2 gs (Z.to_nat b)) as [gr Hg]; [lia|].
      apply obind_Ok. exists gr. split; [apply zget_Ok; split; [lia|done]|].
      destruct (Hgr _ _ Hg) as (? & ? & Hr).
      apply group_checks; [done|]. split; [done|]. split; [done|].
      intros a Ha. specialize (Hr a Ha).
      destruct (lookup_lt_is_Some_2 ids (Z.to_nat a)) as [l Hl]; [lia|].
      exists l. split; [apply zget_Ok; split; [lia|done]|]. destruct (Hids _ _ Hl) as [_ Hiff]. apply Hiff.
      exists gr. split; [lia|]. split; [done|]. by rewrite Z2Nat.id by lia.
    + apply obind_Ok. exists (Z.of_nat (length (pairs_of_lists ids))). split.
      * rewrite <- Hidl.
        apply (count_outer gs N ids Hlen (length ids)); [lia|]. rewrite firstn_all. split; [done|].
        intros a b Hab. apply elem_of_pairs_of_lists in Hab as (l & ? & Hl & Hb).
        destruct (Hids _ _ Hl) as [_ Hiff]. apply Hiff in Hb. by rewrite Z2Nat.id in Hb by lia.
      * apply check_Ok, bool_decide_eq_true. rewrite <- Hlen.
        assert (Hp : pairs_of_lists ids ≡ₚ pairs_of_groups gs).
        { apply NoDup_Permutation.
          - apply NoDup_pairs_of_lists, Forall_lookup. intros i l Hl. by destruct (Hids _ _ Hl).
          - apply NoDup_pairs_of_groups, Forall_lookup. intros i gr Hi. by destruct (Hgr _ _ Hi) as (_ & ? & _).
          - intros [a b]. rewrite elem_of_pairs_of_groups, elem_of_pairs_of_lists. split.
            + intros (l & ? & Hl & Hb). destruct (Hids _ _ Hl) as [_ Hiff]. apply Hiff in Hb.
              by rewrite Z2Nat.id in Hb by lia.
            + intros (gr & Hb & Hg & Ha). destruct (Hgr _ _ Hg) as (_ & _ & Hr). specialize (Hr a Ha).
              destruct (lookup_lt_is_Some_2 ids (Z.to_nat a)) as [l Hl]; [lia|].
              exists l. split; [lia|]. split; [done|]. destruct (Hids _ _ Hl) as [_ Hiff]. apply Hiff.
              exists gr. split; [lia|]. split; [done|]. by rewrite Z2Nat.id by lia. }
        rewrite Hp, (length_pairs_of_groups k) by done. lia.
Qed.
