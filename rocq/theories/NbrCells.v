(** Lemmas about the filling of the cells of DdMd::CellList and about Cell::getNeighbors. *)
From Verif Require Import Base Vec3 BoxSpec DomainModel DomainSpec DomainProofs SpeciesModel SpeciesProofs NbrModel NbrOffsets.
From Coq Require Import Reals Lra.
Local Open Scope Z_scope.

Lemma aget_tab {A} N (f : Z -> A) (i : nat) : Z.of_nat i < N -> aget (tab N f) i = Ok (f (Z.of_nat i)).
Proof. intros. unfold aget. by rewrite tab_lookup. Qed.
Lemma aset_tab {A} N (f : Z -> A) (i : nat) x : Z.of_nat i < N ->
  aset (tab N f) i x = Ok (tab N (fun j => if decide (j = Z.of_nat i) then x else f j)).
Proof. intros. rewrite <- zset_tab by lia. unfold zset. rewrite decide_True by lia. by rewrite Nat2Z.id. Qed.
Lemma list_tab {A} (dflt : A) (l : list A) N : length l = Z.to_nat N -> l = tab N (fun c => default dflt (l !! Z.to_nat c)).
Proof.
  intros H. apply list_eq. intros i. destruct (decide (Z.of_nat i < N)).
  - rewrite tab_lookup by done. rewrite Nat2Z.id. destruct (lookup_lt_is_Some_2 l i) as [x ->]; [lia|]. done.
  - rewrite !lookup_ge_None_2; [done|rewrite tab_length; lia|lia].
Qed.

(** Atoms of one cell, in the order in which they were placed. *)
Definition inC (T : list (nat * Z)) (c : Z) : list nat := map fst (List.filter (fun t => bool_decide (t.2 = c)) T).
Definition firstC (T : list (nat * Z)) (c : Z) : nat := length (flat_map (inC T) (seqZ 0 c)).
Lemma inC_app T T' c : inC (T ++ T') c = inC T c ++ inC T' c.
Proof. unfold inC. by rewrite List.filter_app, map_app. Qed.
Lemma inC_one a c' c : inC [(a, c')] c = if decide (c' = c) then [a] else [].
Proof. unfold inC. simpl. destruct (decide (c' = c)); [rewrite bool_decide_true by done|rewrite bool_decide_false by done]; done. Qed.
Lemma elem_of_inC T c a : a ∈ inC T c <-> (a, c) ∈ T.
Proof.
  unfold inC. rewrite elem_of_list_fmap. setoid_rewrite elem_of_list_In. setoid_rewrite filter_In. setoid_rewrite bool_decide_eq_true.
  split; [intros ([x y] & -> & H & E); simpl in *; by subst|]. intros H. by exists (a, c).
Qed.
Lemma firstC_S T c : 0 <= c -> firstC T (c + 1) = (firstC T c + length (inC T c))%nat.
Proof.
  intros H. unfold firstC. rewrite seqZ_S by done. rewrite flat_map_app, app_length. simpl. by rewrite app_nil_r.
Qed.
Lemma firstC_le T c c' : 0 <= c -> c < c' -> (firstC T c + length (inC T c) <= firstC T c')%nat.
Proof.
  intros Hc Hlt. replace c' with (c + 1 + Z.of_nat (Z.to_nat (c' - c - 1))) by lia.
  generalize (Z.to_nat (c' - c - 1)). clear c' Hlt. induction n as [|k IH].
  - rewrite Z.add_0_r. rewrite firstC_S by done. lia.
  - replace (c + 1 + Z.of_nat (S k)) with (c + 1 + Z.of_nat k + 1) by lia. rewrite firstC_S by lia. lia.
Qed.
Lemma firstC_total T N : (forall a c, (a, c) ∈ T -> 0 <= c < N) -> (firstC T N <= length T)%nat.
Proof.
  unfold firstC. induction T as [|[a c] T IH]; intros H.
  - induction (seqZ 0 N); simpl; [done|]. by rewrite IHl.
  - assert (forall l, NoDup l -> (length (flat_map (inC ((a, c) :: T)) l) <= S (length (flat_map (inC T) l)))%nat /\
      (c ∉ l -> length (flat_map (inC ((a, c) :: T)) l) = length (flat_map (inC T) l))) as Hl.
    { induction 1 as [|x l Hx Hl IHl]; simpl; [lia|]. rewrite !app_length. destruct IHl as [I1 I2].
      change ((a, c) :: T) with ([(a, c)] ++ T) in *. rewrite inC_app, inC_one, app_length.
      destruct (decide (c = x)) as [->|Hne]; cbn [length].
      - rewrite I2 by done. split; [lia|]. intros []. left.
      - split; [lia|]. intros Hn. rewrite I2; [lia|]. intros Hin. apply Hn. by right. }
    destruct (Hl (seqZ 0 N) (NoDup_seqZ _ _)) as [H1 _]. simpl. specialize (IH (fun a' c' H' => H a' c' (elem_of_list_further _ _ _ H'))). lia.
Qed.

Section fill.
  Context (N : Z) (gf : Z -> bool).

  (** The cells after the tags [T] have been placed. *)
  Definition placed (T : list (nat * Z)) : list dcell := tab N (fun c => DCell 0 0 (length (inC T c)) (gf c)).
  Definition prepared (T T1 : list (nat * Z)) : list dcell := tab N (fun c => DCell (firstC T c) (length (inC T1 c)) (length (inC T c)) (gf c)).

  Lemma clear_tab f : (forall c, 0 <= c < N -> dcGhost (f c) = gf c) ->
    foldM (fun l i => let? c := aget l i in aset l i (DCell 0 0 0 (dcGhost c))) (tab N f) (seq 0 (Z.to_nat N)) = Ok (placed []).
  Proof.
    intros Hf.
    assert (forall j k, (k + j = Z.to_nat N)%nat ->
      foldM (fun l i => let? c := aget l i in aset l i (DCell 0 0 0 (dcGhost c))) (tab N (fun c => if decide (c < Z.of_nat k) then DCell 0 0 0 (gf c) else f c)) (seq k j)
      = Ok (placed [])) as H.
    { induction j as [|j IH]; intros k Hk; simpl.
      - f_equal. apply tab_ext. intros c Hc. rewrite decide_True by lia. done.
      - rewrite aget_tab by lia. cbn [obind]. rewrite aset_tab by lia. cbn [obind].
        rewrite decide_False by lia. rewrite Hf by lia.
        rewrite <- (IH (S k)) by lia. f_equal. apply tab_ext. intros c Hc.
        destruct (decide (c = Z.of_nat k)) as [->|Hne]; [rewrite decide_True by lia; done|].
        destruct (decide (c < Z.of_nat k)); [rewrite decide_True by lia; done|rewrite decide_False by lia; done]. }
    rewrite <- (H (Z.to_nat N) 0%nat) by lia. f_equal. apply tab_ext. intros c Hc. rewrite decide_False by lia. done.
  Qed.
  Lemma place_tab T a c : 0 <= c < N ->
    (let? x := zget (placed T) c in zset (placed T) c (DCell (dcBegin x) (dcN x) (S (dcCap x)) (dcGhost x))) = Ok (placed (T ++ [(a, c)])).
  Proof.
    intros Hc. unfold placed. rewrite zget_tab by done. cbn [obind dcBegin dcN dcCap dcGhost]. rewrite zset_tab by done. f_equal. apply tab_ext.
    intros x Hx. rewrite inC_app, inC_one, app_length. destruct (decide (x = c)) as [->|Hne].
    - rewrite decide_True by done. f_equal. simpl. lia.
    - rewrite decide_False by done. f_equal. simpl. lia.
  Qed.
  Lemma initialize_tab T : 0 <= N -> dd_initialize (placed T) (Z.to_nat N) = Ok (prepared T []).
  Proof.
    intros N_pos.
    unfold dd_initialize.
    set (step := fun x i => _).
    assert (forall j k, (k + j = Z.to_nat N)%nat ->
      foldM step (tab N (fun c => DCell (if decide (c < Z.of_nat k) then firstC T c else 0) 0 (length (inC T c)) (gf c)), firstC T (Z.of_nat k)) (seq k j)
      = Ok (prepared T [], firstC T N)) as H.
    { induction j as [|j IH]; intros k Hk; simpl.
      - replace (Z.of_nat k) with N by lia. do 2 f_equal. apply tab_ext. intros c Hc. rewrite decide_True by lia. done.
      - rewrite aget_tab by lia. cbn [obind dcBegin dcN dcCap dcGhost]. rewrite aset_tab by lia. cbn [obind].
        rewrite <- (IH (S k)) by lia. f_equal. f_equal.
        + apply tab_ext. intros c Hc. destruct (decide (c = Z.of_nat k)) as [->|Hne]; [rewrite decide_True by lia; done|].
          destruct (decide (c < Z.of_nat k)); [rewrite (decide_True (P := c < Z.of_nat (S k))) by lia; done|rewrite (decide_False (P := c < Z.of_nat (S k))) by lia; done].
        + replace (Z.of_nat (S k)) with (Z.of_nat k + 1) by lia. rewrite firstC_S by lia. done. }
    specialize (H (Z.to_nat N) 0%nat ltac:(lia)).
    assert ((tab N (fun c => DCell (if decide (c < Z.of_nat 0) then firstC T c else 0) 0 (length (inC T c)) (gf c)), firstC T (Z.of_nat 0)) = (placed T, 0%nat)) as E.
    { f_equal. apply tab_ext. intros c Hc. rewrite decide_False by lia. done. }
    rewrite E in H. rewrite H. done.
  Qed.

  Definition filled (T : list (nat * Z)) (atoms : list (option nat)) : Prop :=
    forall c (j : nat) a, 0 <= c < N -> inC T c !! j = Some a -> atoms !! (firstC T c + j)%nat = Some (Some a).
  Lemma fill_tab T atoms : (forall a c, (a, c) ∈ T -> 0 <= c < N) -> (length T <= length atoms)%nat ->
    exists atoms', foldM dd_append (prepared T [], atoms) T = Ok (prepared T T, atoms') /\ filled T atoms' /\ length atoms' = length atoms.
  Proof.
    intros HT Hlen. pose proof (firstC_total T N HT) as Htot.
    assert (forall T2 T1 at1, T = T1 ++ T2 -> length at1 = length atoms ->
      (forall c (j : nat) a, 0 <= c < N -> inC T1 c !! j = Some a -> at1 !! (firstC T c + j)%nat = Some (Some a)) ->
      exists atoms', foldM dd_append (prepared T T1, at1) T2 = Ok (prepared T T, atoms') /\ filled T atoms' /\ length atoms' = length atoms) as H.
    { induction T2 as [|[a c] T2 IH]; intros T1 at1 E El Hat.
      - exists at1. rewrite app_nil_r in E. subst T1. done.
      - assert (0 <= c < N) as Hc. { apply (HT a). rewrite E. apply elem_of_app. right. left. }
        assert (length (inC T c) = length (inC T1 c) + S (length (inC T2 c)))%nat as Hl.
        { rewrite E, inC_app, app_length. change ((a, c) :: T2) with ([(a, c)] ++ T2). rewrite inC_app, inC_one, app_length, decide_True by done. done. }
        assert (firstC T c + length (inC T c) <= firstC T N)%nat as Hb by (apply firstC_le; lia).
        cbn [foldM]. unfold dd_append at 1. cbn [snd fst]. unfold prepared at 1. rewrite zget_tab by done. cbn [obind dcBegin dcN dcCap dcGhost].
        unfold aset at 1. rewrite decide_True by lia. cbn [obind]. unfold prepared at 1. rewrite zset_tab by done. cbn [obind].
        assert (tab N (fun j => if decide (j = c) then DCell (firstC T c) (S (length (inC T1 c))) (length (inC T c)) (gf c)
          else DCell (firstC T j) (length (inC T1 j)) (length (inC T j)) (gf j)) = prepared T (T1 ++ [(a, c)])) as ->.
        { apply tab_ext. intros x Hx. rewrite inC_app, inC_one, app_length. destruct (decide (x = c)) as [->|Hne].
          - rewrite decide_True by done. f_equal. simpl. lia.
          - rewrite decide_False by done. f_equal. simpl. lia. }
        apply IH.
        + rewrite E, <- app_assoc. done.
        + by rewrite insert_length.
        + intros c' j b Hc' Hj. rewrite inC_app, inC_one in Hj. destruct (decide (c = c')) as [<-|Hne].
          * destruct (decide (j = length (inC T1 c))) as [->|Hj'].
            -- rewrite lookup_app_r in Hj by lia. rewrite Nat.sub_diag in Hj. simpl in Hj. injection Hj as <-.
               apply list_lookup_insert. lia.
            -- rewrite list_lookup_insert_ne by lia. apply Hat; [done|]. apply lookup_app_Some in Hj as [?|[? Hj]]; [done|].
               apply lookup_lt_Some in Hj. simpl in Hj. lia.
          * rewrite app_nil_r in Hj. rewrite list_lookup_insert_ne; [by apply Hat|].
            pose proof (lookup_lt_Some _ _ _ Hj) as Hjl.
            assert (length (inC T1 c') <= length (inC T c'))%nat by (rewrite E, inC_app, app_length; lia).
            destruct (Z.lt_total c c') as [Hlt|[?|Hlt]]; [|lia|].
            -- pose proof (firstC_le T c c' ltac:(lia) Hlt). lia.
            -- pose proof (firstC_le T c' c ltac:(lia) Hlt). lia. }
    apply (H T []); [done|done|]. intros c j a _ Hj. done.
  Qed.

  (** Reading a range of cells. *)
  Lemma read_atoms (atoms : list (option nat)) (l : list nat) : forall (b : nat) nb, (length nb <= MaxNeighborAtom)%nat -> (forall (j : nat) a, l !! j = Some a -> atoms !! (b + j)%nat = Some (Some a)) ->
    foldM (fun nb i => let? a := aget atoms i in match a with None => UB | Some a => if decide (length nb < MaxNeighborAtom)%nat then Ok (nb ++ [a]) else Throw end) nb (seq b (length l))
    = if decide (length nb + length l <= MaxNeighborAtom)%nat then Ok (nb ++ l) else Throw.
  Proof.
    induction l as [|a l IH]; intros b nb Hnb Hl; simpl.
    - rewrite decide_True by lia. by rewrite app_nil_r.
    - unfold aget at 1. specialize (Hl 0%nat a eq_refl) as H0. rewrite Nat.add_0_r in H0. rewrite H0. cbn [obind].
      destruct (decide (length nb < MaxNeighborAtom)%nat).
      + cbn [obind]. rewrite IH.
        * rewrite app_length. simpl. destruct (decide (length nb + S (length l) <= MaxNeighborAtom)%nat).
          -- rewrite decide_True by lia. by rewrite <- app_assoc.
          -- rewrite decide_False by lia. done.
        * rewrite app_length. simpl. lia.
        * intros j x Hj. replace (S b + j)%nat with (b + S j)%nat by lia. by apply Hl.
      + cbn [obind]. rewrite decide_False by lia. done.
  Qed.
  Lemma lookup_range T atoms b (k : nat) : filled T atoms -> 0 <= b -> b + Z.of_nat k <= N -> forall (j : nat) a,
    flat_map (inC T) (seqZ b (Z.of_nat k)) !! j = Some a -> atoms !! (firstC T b + j)%nat = Some (Some a).
  Proof.
    intros HF. revert b. induction k as [|k IH]; intros b Hb Hk j a H; [done|].
    rewrite seqZ_cons in H by lia. simpl flat_map in H. replace (Z.pred (Z.of_nat (S k))) with (Z.of_nat k) in H by lia.
    apply lookup_app_Some in H as [H|[Hlt H]].
    - apply HF; [lia|done].
    - apply IH in H; [|lia|lia]. replace (Z.succ b) with (b + 1) in H by lia. rewrite firstC_S in H by lia.
      rewrite <- H. f_equal. lia.
  Qed.
  Lemma range_length T b (k : nat) : 0 <= b -> length (flat_map (inC T) (seqZ b (Z.of_nat k))) = (firstC T (b + Z.of_nat k) - firstC T b)%nat.
  Proof.
    intros Hb. assert (firstC T (b + Z.of_nat k) = firstC T b + length (flat_map (inC T) (seqZ b (Z.of_nat k))))%nat; [|lia].
    unfold firstC. rewrite seqZ_app by lia. by rewrite flat_map_app, app_length.
  Qed.
  Lemma nb_range_spec s T b e nb : wCells s = prepared T T -> filled T (wAtoms s) -> 0 <= b -> b <= e < N -> (length nb <= MaxNeighborAtom)%nat ->
    nb_range s b e nb = if decide (length nb + length (flat_map (inC T) (seqZ b (e - b + 1))) <= MaxNeighborAtom)%nat
                        then Ok (nb ++ flat_map (inC T) (seqZ b (e - b + 1))) else Throw.
  Proof.
    intros Hcells HF Hb He Hnb. unfold nb_range. rewrite Hcells. unfold prepared. rewrite !zget_tab by lia. cbn [obind dcBegin dcN].
    replace (e - b + 1) with (Z.of_nat (Z.to_nat (e - b + 1))) by lia. set (k := Z.to_nat (e - b + 1)).
    assert (firstC T e + length (inC T e) - firstC T b = length (flat_map (inC T) (seqZ b (Z.of_nat k))))%nat as ->.
    { rewrite range_length by lia. unfold k. rewrite Z2Nat.id by lia. replace (b + (e - b + 1)) with (e + 1) by lia. rewrite firstC_S by lia. done. }
    apply read_atoms; [done|]. intros j a H. eapply lookup_range; [done|done| |done]. lia.
  Qed.
End fill.
