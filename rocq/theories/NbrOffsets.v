(** Lemmas about the list of offsets built by DdMd::CellList::makeGrid. *)
From Verif Require Import Base Vec3 BoxSpec DomainModel DomainSpec DomainProofs SpeciesModel SpeciesProofs NbrModel.
From Coq Require Import Reals Lra.
Local Open Scope Z_scope.

Local Instance vec3Z_eq_dec : EqDecision (vec3 Z).
Proof. solve_decision. Defined.
Definition inside (q : vec3 R) (t : vec3 Z) : bool :=
  if Rle_dec (dd_e (vx q) (vx t) + dd_e (vy q) (vy t) + dd_e (vz q) (vz t)) 1 then true else false.
Definition near (n : Z) : list Z := seqZ (- n) (2 * n + 1).
Definition cube (n : Z) : list (vec3 Z) := flat_map (fun i => flat_map (fun j => map (fun k => V3 i j k) (near n)) (near n)) (near n).
Definition in_cube (n : Z) (t : vec3 Z) : Prop := -n <= vx t <= n /\ -n <= vy t <= n /\ -n <= vz t <= n.

Lemma elem_of_near n k : k ∈ near n <-> -n <= k <= n.
Proof. unfold near. rewrite elem_of_seqZ. lia. Qed.
Lemma elem_of_flat_map {A B} (f : A -> list B) l y : y ∈ flat_map f l <-> exists x, x ∈ l /\ y ∈ f x.
Proof. rewrite elem_of_list_In, in_flat_map. setoid_rewrite elem_of_list_In. done. Qed.
Lemma elem_of_cube n t : t ∈ cube n <-> in_cube n t.
Proof.
  unfold cube. rewrite elem_of_flat_map. split.
  - intros (i & Hi & H). apply elem_of_flat_map in H as (j & Hj & H). apply elem_of_list_fmap in H as (k & -> & Hk).
    rewrite elem_of_near in Hi, Hj, Hk. done.
  - intros (H0 & H1 & H2). exists (vx t). rewrite elem_of_near. split; [done|]. apply elem_of_flat_map.
    exists (vy t). rewrite elem_of_near. split; [done|]. apply elem_of_list_fmap. exists (vz t). rewrite elem_of_near. split; [by destruct t|done].
Qed.
Lemma NoDup_flat_map {A B} (f : A -> list B) l : NoDup l -> (forall x, x ∈ l -> NoDup (f x)) ->
  (forall x y z, x ∈ l -> y ∈ l -> z ∈ f x -> z ∈ f y -> x = y) -> NoDup (flat_map f l).
Proof.
  induction 1 as [|x l Hx Hl IH]; intros H1 H2; simpl; [apply NoDup_nil_2|].
  apply NoDup_app. split; [apply H1; left|]. split.
  - intros z Hz Hin. apply elem_of_flat_map in Hin as (y & Hy & Hin). apply Hx.
    rewrite (H2 x y z); [done|left|by right|done|done].
  - apply IH; intros; [apply H1; by right|]. eapply H2; [by right|by right|done|done].
Qed.
Lemma NoDup_near n : NoDup (near n).
Proof. apply NoDup_seqZ. Qed.
Lemma NoDup_cube n : NoDup (cube n).
Proof.
  unfold cube. apply NoDup_flat_map; [apply NoDup_near| |].
  - intros i _. apply NoDup_flat_map; [apply NoDup_near| |].
    + intros j _. assert (Inj eq eq (fun k : Z => V3 i j k)) by (intros ? ? E; by injection E). by apply NoDup_fmap_2, NoDup_near.
    + intros j j' z _ _ (k & -> & _)%elem_of_list_fmap (k' & E & _)%elem_of_list_fmap. by injection E.
  - intros i i' z _ _ H H'. apply elem_of_flat_map in H as (? & _ & (? & -> & _)%elem_of_list_fmap).
    apply elem_of_flat_map in H' as (? & _ & (? & E & _)%elem_of_list_fmap). by injection E.
Qed.
Lemma map_fmap {A B C} (f : B -> C) (g : A -> B) l : map f (g <$> l) = map (fun x => f (g x)) l.
Proof. induction l as [|x l IH]; simpl; [done|]. by f_equal. Qed.
Lemma map_flat_map {A B C} (g : B -> C) (f : A -> list B) l : map g (flat_map f l) = flat_map (fun x => map g (f x)) l.
Proof. induction l; simpl; [done|]. by rewrite map_app, IHl. Qed.
Lemma dd_items_cube d q n : dd_items d q n = map (fun t => (grid_rank d t, inside q t)) (cube n).
Proof.
  unfold dd_items, cube. rewrite map_flat_map. apply flat_map_ext. intros i. rewrite map_flat_map. apply flat_map_ext. intros j.
  rewrite map_map. apply map_ext. intros k. unfold grid_rank, inside; cbn [vx vy vz]. f_equal. lia.
Qed.

(** ** The strips *)
Definition sstate : Type := list (Z * Z) * (Z * Z) * bool.
Definition strip1 (x : sstate) (item : Z * bool) : sstate :=
  let '(l, s, act) := x in
  if item.2 && bool_decide (item.1 <> 0) then
    if (act : bool) then if decide (item.1 = s.2 + 1) then (l, (s.1, item.1), true) else (l ++ [s], (item.1, item.1), true)
    else (l, (item.1, item.1), true)
  else if act then (l ++ [s], s, false) else (l, s, false).
Definition nstrip (x : sstate) : nat := (length x.1.1 + if x.2 then 1 else 0)%nat.
Definition strips (x : sstate) : list (Z * Z) := x.1.1 ++ if x.2 then [x.1.2] else [].
Definition expand (st : Z * Z) : list Z := seqZ st.1 (st.2 - st.1 + 1).

Lemma nstrip_mono x it : (nstrip x <= nstrip (strip1 x it))%nat.
Proof. destruct x as [[l s] act], it as [o b]. unfold nstrip, strip1. simpl.
  destruct (b && bool_decide (o <> 0)), act; try destruct (decide _); simpl; rewrite ?app_length; simpl; lia. Qed.
Lemma nstrip_mono_fold its : forall x, (nstrip x <= nstrip (fold_left strip1 its x))%nat.
Proof. induction its as [|it its IH]; intros x; simpl; [done|]. pose proof (nstrip_mono x it). pose proof (IH (strip1 x it)). lia. Qed.
Lemma strip_ok x it : (nstrip x <= 84)%nat -> dd_strip x it = Ok (strip1 x it).
Proof.
  destruct x as [[l s] act], it as [o b]. unfold nstrip, dd_strip, strip1, off_append. simpl. intros H.
  destruct b; simpl.
  - destruct (decide (o <> 0)) as [Ho|Ho].
    + rewrite bool_decide_true by done. destruct act; [|done].
      destruct (decide (o = s.2 + 1)); [done|]. rewrite decide_True by lia. done.
    + rewrite bool_decide_false by done. destruct act; [|done]. rewrite decide_True by lia. done.
  - destruct act; [|done]. rewrite decide_True by lia. done.
Qed.
Lemma strips_ok its : forall x, (nstrip (fold_left strip1 its x) <= 84)%nat -> foldM dd_strip x its = Ok (fold_left strip1 its x).
Proof.
  induction its as [|it its IH]; intros x H; simpl; [done|]. simpl in H.
  rewrite strip_ok; [simpl; by apply IH|]. pose proof (nstrip_mono x it). pose proof (nstrip_mono_fold its (strip1 x it)). lia.
Qed.

Definition strip_good (st : Z * Z) : Prop := st.1 <= st.2 /\ (st.2 < 0 \/ 0 < st.1).
Definition sgood (x : sstate) : Prop := Forall (fun st => st = (0, 0) \/ strip_good st) x.1.1 /\ (x.2 = true -> strip_good x.1.2).
Lemma expand_extend a b : a <= b -> expand (a, b + 1) = expand (a, b) ++ [b + 1].
Proof.
  intros H. unfold expand; cbn [fst snd]. replace (b + 1 - a + 1) with ((b - a + 1) + 1) by lia.
  rewrite seqZ_app by lia. f_equal. rewrite (seqZ_cons _ 1) by lia. f_equal. lia.
Qed.
Lemma expand_one a : expand (a, a) = [a].
Proof. unfold expand; cbn [fst snd]. replace (a - a + 1) with 1 by lia. by rewrite seqZ_cons. Qed.
Lemma strip1_spec x it : sgood x -> sgood (strip1 x it) /\
  flat_map expand (strips (strip1 x it)) = flat_map expand (strips x) ++ (if it.2 && bool_decide (it.1 <> 0) then [it.1] else []).
Proof.
  destruct x as [[l s] act], it as [o b]. unfold sgood, strips, strip1. simpl. intros [H1 H2].
  destruct (b && bool_decide (o <> 0)) eqn:E; simpl.
  - apply andb_prop in E as [_ Ho%bool_decide_eq_true].
    destruct act.
    + specialize (H2 eq_refl). destruct (decide (o = s.2 + 1)) as [->|Hne]; simpl.
      * split. { split; [done|]. intros _. destruct H2 as [? [?|?]]; (split; simpl; [lia|]); [left; lia|right; lia]. }
        rewrite !flat_map_app. simpl. rewrite !app_nil_r. destruct H2 as [H2 _]. destruct s as [a c]. simpl in *.
        rewrite expand_extend by done. by rewrite app_assoc.
      * split. { split; [apply Forall_app; split; [done|]; constructor; [by right|constructor]|]. intros _. split; simpl; lia. }
        rewrite !flat_map_app. simpl. rewrite !app_nil_r. by rewrite expand_one, <- app_assoc.
    + split. { split; [done|]. intros _. split; simpl; lia. }
      rewrite !flat_map_app. simpl. rewrite expand_one, !app_nil_r. done.
  - destruct act.
    + specialize (H2 eq_refl). split. { split; [apply Forall_app; split; [done|]; constructor; [by right|constructor]|done]. }
      simpl. rewrite !app_nil_r. done.
    + split; [split; [done|done]|]. by rewrite !app_nil_r.
Qed.
Lemma strips_spec its : forall x, sgood x -> sgood (fold_left strip1 its x) /\
  flat_map expand (strips (fold_left strip1 its x)) = flat_map expand (strips x) ++ map fst (List.filter (fun it => it.2 && bool_decide (it.1 <> 0)) its).
Proof.
  induction its as [|it its IH]; intros x H; simpl; [by rewrite app_nil_r|].
  destruct (strip1_spec x it H) as [G E]. destruct (IH _ G) as [G' E']. split; [done|]. rewrite E', E, <- app_assoc. f_equal.
  destruct (it.2 && bool_decide (it.1 <> 0)); done.
Qed.

(** Number of strips: at most one more for every row, two for the row of the cell itself. *)
Definition rowi (o : Z) (b : Z -> bool) (a : Z) (L : nat) : list (Z * bool) := map (fun k => (o + Z.of_nat k + a, b (Z.of_nat k + a))) (seq 0 L).
Lemma rowi_S o b a L : rowi o b a (S L) = (o + a, b a) :: rowi o b (a + 1) L.
Proof.
  unfold rowi. cbn [seq map]. rewrite <- seq_shift, map_map.
  replace (o + Z.of_nat 0 + a) with (o + a) by lia. replace (Z.of_nat 0 + a) with a by lia. f_equal.
  apply map_ext. intros k. replace (Z.of_nat (S k)) with (Z.of_nat k + 1) by lia.
  replace (o + (Z.of_nat k + 1) + a) with (o + Z.of_nat k + (a + 1)) by lia. by replace (Z.of_nat k + 1 + a) with (Z.of_nat k + (a + 1)) by lia.
Qed.
Lemma run_false o b L : forall a x, (forall k, a <= k < a + Z.of_nat L -> b k = false) -> nstrip (fold_left strip1 (rowi o b a L) x) = nstrip x.
Proof.
  induction L as [|L IH]; intros a x H; [done|]. rewrite rowi_S. simpl. rewrite IH by (intros; apply H; lia).
  rewrite (H a) by lia. destruct x as [[l s] act]. unfold nstrip, strip1. simpl. destruct act; simpl; rewrite ?app_length; simpl; lia.
Qed.
Lemma run_down o b L : forall a l s, (forall k, a <= k < a + Z.of_nat L -> o + k <> 0) ->
  (forall j k, a <= j <= k -> k < a + Z.of_nat L -> b k = true -> b j = true) -> s.2 + 1 = o + a ->
  nstrip (fold_left strip1 (rowi o b a L) (l, s, true)) = S (length l).
Proof.
  induction L as [|L IH]; intros a l s H0 Hd Hs; [unfold nstrip; simpl; lia|]. rewrite rowi_S. cbn [fold_left].
  destruct (b a) eqn:E.
  - unfold strip1 at 2. cbn [fst snd]. rewrite bool_decide_true by (apply H0; lia). simpl.
    rewrite decide_True by lia. apply IH; simpl.
    + intros. apply H0. lia.
    + intros j k ? ? ?. apply (Hd j k); [lia|lia|done].
    + lia.
  - rewrite run_false.
    + unfold nstrip, strip1. simpl. rewrite app_length. simpl. lia.
    + intros k Hk. destruct (b k) eqn:Ek; [|done]. rewrite (Hd a k) in E; [done|lia|lia|done].
Qed.
Lemma run_row o b L : forall a x, (forall k, a <= k < a + Z.of_nat L -> o + k <> 0) ->
  (forall i j k, a <= i <= j -> j <= k -> k < a + Z.of_nat L -> b i = true -> b k = true -> b j = true) ->
  (nstrip (fold_left strip1 (rowi o b a L) x) <= S (nstrip x))%nat.
Proof.
  induction L as [|L IH]; intros a x H0 Hc; [simpl; lia|]. rewrite rowi_S. cbn [fold_left].
  destruct (b a) eqn:E.
  - assert (exists l s, strip1 x (o + a, true) = (l, s, true) /\ s.2 = o + a /\ (S (length l) <= S (nstrip x))%nat) as (l & s & -> & Hs & Hl).
    { destruct x as [[l s] act]. unfold strip1, nstrip. cbn [fst snd]. rewrite bool_decide_true by (apply H0; lia). simpl.
      destruct act; [destruct (decide _)|]; do 2 eexists; (split; [done|]); simpl; (split; [done|]); rewrite ?app_length; simpl; lia. }
    rewrite run_down; [lia| | |].
    + intros. apply H0. lia.
    + intros j k ? ? ?. apply (Hc a j k); [lia|lia|lia|done|done].
    + lia.
  - assert (nstrip (strip1 x (o + a, false)) = nstrip x) as Hx.
    { destruct x as [[l s] act]. unfold nstrip, strip1. simpl. destruct act; simpl; rewrite ?app_length; simpl; lia. }
    rewrite <- Hx. apply IH; [intros; apply H0; lia|]. intros i j k ? ? ?. apply Hc; lia.
Qed.

Lemma dd_e_mono q i j : (0 <= q)%R -> Z.abs i <= Z.abs j -> (dd_e q i <= dd_e q j)%R.
Proof.
  intros Hq H. unfold dd_e. destruct (decide (j = 0)) as [->|Hj].
  { assert (i = 0) as -> by lia. simpl. lra. }
  assert (0 <= IZR (Z.abs j - 1))%R by (apply IZR_le; lia).
  destruct (decide (i = 0)) as [->|Hi].
  { cbv zeta. apply Rle_0_sqr. }
  assert (0 <= IZR (Z.abs i - 1))%R by (apply IZR_le; lia).
  assert (IZR (Z.abs i - 1) <= IZR (Z.abs j - 1))%R by (apply IZR_le; lia).
  cbv zeta. apply Rmult_le_compat; try (apply Rmult_le_pos; lra); apply Rmult_le_compat_l; lra.
Qed.

Section offsets.
  Context (d : vec3 Z) (q : vec3 R) (n : Z).
  Hypothesis n_pos : 1 <= n.
  Hypothesis n_le : n <= 4.
  Hypothesis d_y : 2 * n + 1 <= vy d.
  Hypothesis d_z : 2 * n + 1 <= vz d.
  Hypothesis q_pos : (0 <= vx q /\ 0 <= vy q /\ 0 <= vz q)%R.

  Lemma rank_zero_iff t : in_cube n t -> grid_rank d t = 0 <-> t = V3 0 0 0.
  Proof.
    intros (Hx & Hy & Hz). split; [|intros ->; unfold grid_rank; simpl; lia].
    unfold grid_rank. intros H.
    assert (vy t + vy d * vx t = 0) as H1.
    { destruct (Z.eq_dec (vy t + vy d * vx t) 0); [done|]. exfalso. assert (vy t + vy d * vx t <= -1 \/ 1 <= vy t + vy d * vx t) as [?|?] by lia; nia. }
    assert (vx t = 0) as H2.
    { destruct (Z.eq_dec (vx t) 0); [done|]. exfalso. assert (vx t <= -1 \/ 1 <= vx t) as [?|?] by lia; nia. }
    destruct t; simpl in *. subst. f_equal; nia.
  Qed.
  Lemma rank_inj2 t t' : in_cube n t -> in_cube n t' -> grid_rank d t = grid_rank d t' -> t = t'.
  Proof.
    intros (Hx & Hy & Hz) (Hx' & Hy' & Hz'). unfold grid_rank. intros H.
    assert (vz t - vz t' + vz d * ((vy t - vy t') + vy d * (vx t - vx t')) = 0) as H' by nia.
    set (dx := vx t - vx t') in *. set (dy := vy t - vy t') in *. set (dz := vz t - vz t') in *.
    assert (dy + vy d * dx = 0) as H1.
    { destruct (Z.eq_dec (dy + vy d * dx) 0); [done|]. exfalso. assert (dy + vy d * dx <= -1 \/ 1 <= dy + vy d * dx) as [?|?] by lia; nia. }
    assert (dx = 0) as H2.
    { destruct (Z.eq_dec dx 0); [done|]. exfalso. assert (dx <= -1 \/ 1 <= dx) as [?|?] by lia; nia. }
    destruct t, t'; simpl in *. f_equal; nia.
  Qed.

  Lemma row_bound i j x : -n <= i <= n -> -n <= j <= n ->
    (nstrip (fold_left strip1 (map (fun t => (grid_rank d t, inside q t)) (map (fun k => V3 i j k) (near n))) x)
     <= nstrip x + if decide (i = 0 /\ j = 0)%Z then 2 else 1)%nat.
  Proof.
    intros Hi Hj. rewrite map_map.
    set (o := grid_rank d (V3 i j 0)). set (b := fun k => inside q (V3 i j k)).
    assert (forall a L, map (fun k => (grid_rank d (V3 i j k), inside q (V3 i j k))) (seqZ a (Z.of_nat L)) = rowi o b a L) as Erow.
    { intros a L. unfold seqZ, rowi. rewrite Nat2Z.id, map_fmap. apply map_ext.
      intros k. unfold o, b, grid_rank; simpl. f_equal. lia. }
    assert (forall i' j' k', Z.abs j' <= Z.abs i' \/ Z.abs j' <= Z.abs k' -> b i' = true -> b k' = true -> b j' = true) as Hc.
    { intros i' j' k' H. unfold b, inside; cbn [vx vy vz]. destruct (Rle_dec _ 1) as [Hi'|]; [|done]. destruct (Rle_dec (_ + dd_e (vz q) k') 1) as [Hk'|]; [|done].
      intros _ _. destruct (Rle_dec _ 1) as [|Hn]; [done|]. exfalso. apply Hn.
      destruct H as [H|H]; pose proof (dd_e_mono (vz q) _ _ ltac:(lra) H); lra. }
    assert (forall k, -n <= k <= n -> o + k = grid_rank d (V3 i j k)) as Ho.
    { intros k _. unfold o, grid_rank; simpl. lia. }
    destruct (decide (i = 0 /\ j = 0)) as [[-> ->]|Hne].
    - replace (near n) with (seqZ (-n) (Z.of_nat (Z.to_nat n)) ++ [0] ++ seqZ 1 (Z.of_nat (Z.to_nat n))).
      2:{ unfold near. replace (2 * n + 1) with (n + (1 + n)) by lia. rewrite seqZ_app by lia. rewrite Z2Nat.id by lia. f_equal.
          rewrite seqZ_app by lia. rewrite (seqZ_cons (-n + n) 1) by lia. replace (-n + n) with 0 by lia. done. }
      rewrite !map_app, !Erow, !fold_left_app.
      set (y := fold_left strip1 (rowi o b (-n) (Z.to_nat n)) x).
      assert (nstrip y <= S (nstrip x))%nat as Hy.
      { apply run_row.
        - intros k Hk. rewrite Ho by lia. intros E. apply rank_zero_iff in E; [injection E; lia|]. repeat split; simpl; lia.
        - intros i' j' k' ? ? ?. apply Hc. lia. }
      set (z := fold_left strip1 (map _ [0]) y).
      assert (nstrip z = nstrip y) as Hz.
      { unfold z. simpl. assert (grid_rank d (V3 0 0 0) = 0) as -> by (apply rank_zero_iff; repeat split; simpl; lia).
        destruct y as [[l s] act]. unfold nstrip, strip1. simpl. rewrite andb_false_r. destruct act; simpl; rewrite ?app_length; simpl; lia. }
      assert (nstrip (fold_left strip1 (rowi o b 1 (Z.to_nat n)) z) <= S (nstrip z))%nat.
      { apply run_row.
        - intros k Hk. rewrite Ho by lia. intros E. apply rank_zero_iff in E; [injection E; lia|]. repeat split; simpl; lia.
        - intros i' j' k' ? ? ?. apply Hc. lia. }
      lia.
    - replace (near n) with (seqZ (-n) (Z.of_nat (Z.to_nat (2 * n + 1)))) by (unfold near; f_equal; lia).
      rewrite Erow. pose proof (run_row o b (Z.to_nat (2 * n + 1)) (-n) x) as H. 
      assert (nstrip (fold_left strip1 (rowi o b (- n) (Z.to_nat (2 * n + 1))) x) <= S (nstrip x))%nat; [|lia]. apply H.
      + intros k Hk. rewrite Ho by lia. intros E. apply rank_zero_iff in E; [injection E; naive_solver|]. repeat split; simpl; lia.
      + intros i' j' k' ? ? ?. apply Hc. lia.
  Qed.
  (** One row after the other. *)
  Lemma rows_bound i L : -n <= i <= n -> (forall j, j ∈ L -> -n <= j <= n) -> NoDup L -> forall x,
    (nstrip (fold_left strip1 (map (fun t => (grid_rank d t, inside q t)) (flat_map (fun j => map (fun k => V3 i j k) (near n)) L)) x)
     <= nstrip x + length L + if decide (i = 0 /\ 0 ∈ L)%Z then 1 else 0)%nat.
  Proof.
    intros Hi. induction L as [|j L IH]; intros HL HN x; simpl; [lia|]. rewrite map_app, fold_left_app.
    apply NoDup_cons in HN as [Hj HN].
    specialize (IH (fun j' H => HL j' (elem_of_list_further _ _ _ H)) HN (fold_left strip1 (map (fun t => (grid_rank d t, inside q t)) (map (fun k => V3 i j k) (near n))) x)).
    pose proof (row_bound i j x Hi (HL j (elem_of_list_here _ _))) as H.
    destruct (decide (i = 0 /\ j = 0)) as [[-> ->]|H1].
    - rewrite (decide_False (P := 0 = 0 /\ 0 ∈ L)) in IH by tauto. rewrite decide_True by (split; [done|left]). lia.
    - destruct (decide (i = 0 /\ 0 ∈ L)) as [[-> H2]|H2].
      + rewrite decide_True by (split; [done|by right]). lia.
      + rewrite decide_False; [lia|]. intros [-> H3]. apply elem_of_cons in H3 as [<-|H3]; tauto.
  Qed.
  Lemma cube_bound L : (forall j, j ∈ L -> -n <= j <= n) -> NoDup L -> forall x,
    (nstrip (fold_left strip1 (map (fun t => (grid_rank d t, inside q t)) (flat_map (fun i => flat_map (fun j => map (fun k => V3 i j k) (near n)) (near n)) L)) x)
     <= nstrip x + length L * Z.to_nat (2 * n + 1) + if decide (0%Z ∈ L) then 1 else 0)%nat.
  Proof.
    induction L as [|i L IH]; intros HL HN x; simpl; [lia|]. rewrite map_app, fold_left_app.
    apply NoDup_cons in HN as [Hj HN].
    specialize (IH (fun j' H => HL j' (elem_of_list_further _ _ _ H)) HN
      (fold_left strip1 (map (fun t => (grid_rank d t, inside q t)) (flat_map (fun j => map (fun k => V3 i j k) (near n)) (near n))) x)).
    pose proof (rows_bound i (near n) (HL i (elem_of_list_here _ _)) (fun j => proj1 (elem_of_near n j)) (NoDup_near n) x) as H.
    assert (length (near n) = Z.to_nat (2 * n + 1)) as El by (unfold near; apply seqZ_length). rewrite El in H.
    destruct (decide (i = 0 /\ 0 ∈ near n)) as [[-> _]|H1].
    - rewrite (decide_False (P := 0 ∈ L)) in IH by tauto. rewrite decide_True by left. lia.
    - destruct (decide (0 ∈ L)) as [H2|H2].
      + rewrite decide_True by (by right). lia.
      + rewrite decide_False; [lia|]. intros H3. apply elem_of_cons in H3 as [<-|H3]; [|tauto]. apply H1. rewrite elem_of_near. lia.
  Qed.

  (** The offsets: the cells near enough, without the cell itself. *)
  Definition reach : list Z := map (grid_rank d) (List.filter (fun t => inside q t && bool_decide (t <> V3 0 0 0)) (cube n)).
  Lemma offsets_spec : exists off, dd_offsets d q n = Ok off /\ head off = Some (0, 0) /\
    Forall (fun st => st = (0, 0) \/ strip_good st) off /\ flat_map expand off = 0 :: reach.
  Proof.
    unfold dd_offsets. unfold off_append at 1. simpl. rewrite dd_items_cube.
    set (its := map _ (cube n)). set (x0 := ([(0, 0)], (0, 0), false) : sstate).
    assert (nstrip (fold_left strip1 its x0) <= 83)%nat as HN.
    { pose proof (cube_bound (near n) (fun j => proj1 (elem_of_near n j)) (NoDup_near n) x0) as H.
      assert (length (near n) = Z.to_nat (2 * n + 1)) as El by (unfold near; apply seqZ_length). rewrite El in H.
      fold (cube n) in H. fold its in H. change (nstrip x0) with 1%nat in H.
      assert (Z.to_nat (2 * n + 1) <= 9)%nat by lia.
      assert (Z.to_nat (2 * n + 1) * Z.to_nat (2 * n + 1) <= 9 * 9)%nat by (apply Nat.mul_le_mono; done).
      destruct (decide _); lia. }
    rewrite strips_ok by (fold x0; lia). simpl.
    destruct (strips_spec its x0) as [[G1 G2] E].
    { split; simpl; [|done]. constructor; [by left|constructor]. }
    change (flat_map expand (strips x0)) with [0] in E. unfold x0 in *.
    assert (exists off, (let '(l, s, active) := fold_left strip1 its ([(0, 0)], (0, 0), false) in if (active : bool) then off_append l s else Ok l) = Ok off /\
      off = strips (fold_left strip1 its ([(0, 0)], (0, 0), false)) /\ Forall (fun st => st = (0, 0) \/ strip_good st) off) as (off & H1 & H2 & H3).
    { destruct (fold_left strip1 its ([(0, 0)], (0, 0), false)) as [[l s] act]. unfold strips, nstrip in *. simpl in *. destruct act.
      - unfold off_append. rewrite decide_True by lia. eexists. split; [done|]. split; [done|]. apply Forall_app. split; [done|]. constructor; [right; auto|constructor].
      - eexists. split; [done|]. split; [by rewrite app_nil_r|done]. }
    exists off. split; [exact H1|]. split.
    { rewrite H2. assert (forall its x, head x.1.1 = Some (0, 0) -> head (strips (fold_left strip1 its x)) = Some (0, 0)) as Hh.
      { clear. induction its as [|it its IH]; intros x H; simpl.
        - unfold strips. destruct x as [[[|? ?] ?] ?]; simpl in *; [done|done].
        - apply IH. destruct x as [[[|? ?] ?] ?]; cbn in *; [done|]. destruct (_ && _), b; try destruct (decide _); simpl; done. }
      by apply Hh. }
    split; [done|]. rewrite H2, E. simpl. f_equal. unfold its, reach. clear - n_pos n_le d_y d_z q_pos.
    assert (forall l, (forall t, t ∈ l -> in_cube n t) ->
      map fst (List.filter (fun it => it.2 && bool_decide (it.1 <> 0)) (map (fun t => (grid_rank d t, inside q t)) l)) =
      map (grid_rank d) (List.filter (fun t => inside q t && bool_decide (t <> V3 0 0 0)) l)) as H.
    { induction l as [|t l IH]; intros Hl; simpl; [done|].
      assert (bool_decide (grid_rank d t <> 0) = bool_decide (t <> V3 0 0 0)) as ->.
      { pose proof (rank_zero_iff t (Hl t (elem_of_list_here _ _))). apply bool_decide_ext. tauto. }
      specialize (IH (fun t' H => Hl t' (elem_of_list_further _ _ _ H))).
      destruct (_ && _); simpl; [by f_equal|done]. }
    apply H. intros t. apply elem_of_cube.
  Qed.

  Lemma elem_of_reach o : o ∈ reach <-> exists t, in_cube n t /\ inside q t = true /\ t <> V3 0 0 0 /\ o = grid_rank d t.
  Proof.
    clear. unfold reach. rewrite elem_of_list_fmap. setoid_rewrite elem_of_list_In at 1. setoid_rewrite filter_In.
    setoid_rewrite <- elem_of_list_In. setoid_rewrite elem_of_cube. setoid_rewrite andb_true_iff. setoid_rewrite bool_decide_eq_true. naive_solver.
  Qed.
  Lemma NoDup_reach : NoDup (0 :: reach).
  Proof.
    apply NoDup_cons. split.
    - rewrite elem_of_reach. intros (t & Ht & _ & Hn & E). symmetry in E. by apply rank_zero_iff in E.
    - unfold reach. assert (forall l : list (vec3 Z), NoDup l -> (forall t, t ∈ l -> in_cube n t) -> NoDup (map (grid_rank d) l)) as H.
      { induction 1 as [|t l Ht Hl IH]; intros Hc; simpl; [apply NoDup_nil_2|]. apply NoDup_cons. split.
        - intros (t' & E & Ht')%elem_of_list_fmap. apply rank_inj2 in E; [congruence|apply Hc; left|apply Hc; by right].
        - apply IH. intros. apply Hc. by right. }
      apply H.
      + assert (forall (P : vec3 Z -> bool) l, NoDup l -> NoDup (List.filter P l)) as HF.
        { intros P. induction 1 as [|t l Ht Hl IH]; simpl; [apply NoDup_nil_2|]. destruct (P t); [|done]. apply NoDup_cons. split; [|done].
          rewrite elem_of_list_In, filter_In, <- elem_of_list_In. tauto. }
        apply HF, NoDup_cube.
      + intros t. rewrite elem_of_list_In, filter_In, <- elem_of_list_In, elem_of_cube. tauto.
  Qed.
End offsets.
