(** The waves of StructureFactorGrid (C104). *)
From stdpp Require Import list_numbers.
From Verif Require Import Base Vec3 SymModel SymSpec SymProofs SymGrid SymProps.
Local Open Scope Z_scope.

Lemma bind_NoDup {A B} (f : A -> list B) (l : list A) : NoDup l -> (forall x, x ∈ l -> NoDup (f x)) ->
  (forall x y b, x ∈ l -> y ∈ l -> b ∈ f x -> b ∈ f y -> x = y) -> NoDup (l ≫= f).
Proof.
  induction l as [|a l IH]; intros HN HF HD; cbn; [apply NoDup_nil_2|]. apply NoDup_cons in HN as [Ha HN]. apply NoDup_app. split; [apply HF; left|]. split.
  - intros b Hb (y & Hy & Hin)%elem_of_list_bind. apply Ha. rewrite (HD a y b); [done|left|by right|done|done].
  - apply IH; [done|intros; apply HF; by right|]. intros x y b Hx Hy. apply HD; by right.
Qed.
Lemma bind_length {A B} (f : A -> list B) (l : list A) : length (l ≫= f) = list_sum (map (fun a => length (f a)) l).
Proof. induction l as [|a l IH]; cbn; [done|]. rewrite app_length, IH. done. Qed.
Lemma bind_length_const {A B} (f : A -> list B) (l : list A) n : (forall a, a ∈ l -> length (f a) = n) -> length (l ≫= f) = (length l * n)%nat.
Proof. intros H. induction l as [|a l IH]; cbn; [done|]. rewrite app_length, IH, (H a); [lia|left|]. intros; apply H; by right. Qed.

(** * The roots *)
Lemma roots_iff L H v : three L -> v ∈ grid_roots L H <-> key L v = v /\ in_grid (Z.of_nat H) v.
Proof.
  intros HL. unfold grid_roots. rewrite elem_of_list_bind. split.
  - intros (h & (k & (l & ->%elem_of_list_singleton & Hl)%elem_of_list_bind & Hk)%elem_of_list_bind & Hh).
    apply elem_of_list_In, in_seq in Hh, Hk, Hl. unfold in_grid. cbn [vx vy vz]. destruct HL as [-> |[-> | ->]]; unfold key; cbn [vx vy vz]; (split; [f_equal; lia|lia]).
  - destruct v as [x y z]. intros [HK (H1 & H2 & H3)]. cbn [vx vy vz] in *. exists (Z.to_nat x).
    assert (0 <= x /\ 0 <= y /\ 0 <= z /\ (L = Cubic -> y <= x) /\ (L <> Orthorhombic -> z <= y)) as (P1 & P2 & P3 & P4 & P5).
    { destruct HL as [-> |[-> | ->]]; unfold key in HK; cbn [vx vy vz] in HK; injection HK as K1 K2 K3; (split; [lia|]; split; [lia|]; split; [lia|]; split; [intros E; try discriminate E; lia|]; intros E; try congruence; lia). }
    split; [|apply elem_of_list_In, in_seq; lia]. apply elem_of_list_bind. exists (Z.to_nat y). split.
    + apply elem_of_list_bind. exists (Z.to_nat z). split; [rewrite !Z2Nat.id by lia; left|]. apply elem_of_list_In, in_seq.
      destruct HL as [-> |[-> | ->]]; [specialize (P5 ltac:(done)); lia|specialize (P5 ltac:(done)); lia|lia].
    + apply elem_of_list_In, in_seq. destruct HL as [-> |[-> | ->]]; [specialize (P4 Logic.eq_refl); lia|lia|lia].
Qed.
Lemma roots_NoDup L H : NoDup (grid_roots L H).
Proof.
  unfold grid_roots. apply bind_NoDup; [apply NoDup_ListNoDup, seq_NoDup| |].
  - intros h _. apply bind_NoDup; [apply NoDup_ListNoDup, seq_NoDup| |].
    + intros k _. apply bind_NoDup; [apply NoDup_ListNoDup, seq_NoDup|intros; apply NoDup_singleton|].
      intros l l' b _ _ ->%elem_of_list_singleton E%elem_of_list_singleton. injection E. lia.
    + intros k k' b _ _ (l & ->%elem_of_list_singleton & _)%elem_of_list_bind (l' & E%elem_of_list_singleton & _)%elem_of_list_bind. injection E. lia.
  - intros h h' b _ _ (k & (l & ->%elem_of_list_singleton & _)%elem_of_list_bind & _)%elem_of_list_bind (k' & (l' & E%elem_of_list_singleton & _)%elem_of_list_bind & _)%elem_of_list_bind.
    injection E. lia.
Qed.
Lemma sum_seq (f : nat -> nat) n : list_sum (map f (seq 0 (S n))) = (list_sum (map f (seq 0 n)) + f n)%nat.
Proof. rewrite seq_S, map_app, list_sum_app. cbn. lia. Qed.
Lemma sum_1 n : (2 * list_sum (map S (seq 0 n)) = n * (n + 1))%nat.
Proof. induction n as [|n IH]; [done|]. rewrite sum_seq. lia. Qed.
Lemma sum_2 n : (6 * list_sum (map (fun h => list_sum (map S (seq 0 (S h)))) (seq 0 n)) = n * (n + 1) * (n + 2))%nat.
Proof. induction n as [|n IH]; [done|]. rewrite (sum_seq _ n). cbv beta. pose proof (sum_1 (S n)). nia. Qed.
Lemma sum_const (c : nat) (l : list nat) : list_sum (map (fun _ => c) l) = (length l * c)%nat.
Proof. induction l as [|x l IH]; [done|]. change (list_sum (map (fun _ => c) (x :: l))) with (c + list_sum (map (fun _ : nat => c) l))%nat. rewrite IH. cbn. lia. Qed.
Lemma roots_length L H : three L -> length (grid_roots L H) = grid_nStar L H.
Proof.
  intros HL. unfold grid_roots. rewrite bind_length.
  assert (E : forall h, length (k ← seq 0 (S match L with Cubic => h | _ => H end); l ← seq 0 (S match L with Orthorhombic => H | _ => k end); [V3 (Z.of_nat h) (Z.of_nat k) (Z.of_nat l)])
    = list_sum (map (fun k => S match L with Orthorhombic => H | _ => k end) (seq 0 (S match L with Cubic => h | _ => H end)))).
  { intros h. rewrite bind_length. f_equal. apply map_ext. intros k. rewrite (bind_length_const _ _ 1) by done. rewrite seq_length. lia. }
  rewrite (map_ext _ _ E). clear E. destruct HL as [-> |[-> | ->]]; unfold grid_nStar.
  - pose proof (sum_2 (S H)) as S2. change (map (fun k => S k)) with (map S). apply Nat.div_unique_exact; [lia|]. rewrite S2. nia.
  - pose proof (sum_1 (S H)) as S1. rewrite sum_const, seq_length. change (map (fun k => S k)) with (map S). apply Nat.div_unique_exact; [lia|]. nia.
  - rewrite sum_const, sum_const, !seq_length. lia.
Qed.
(** * The loops *)
Definition star_at (L : lattice) (g : vec3 Z) : list (vec3 Z) := match makeStar (grid_cap L) (the_group L) g with Ok s => s | _ => [] end.
Lemma star_at_ok L g : three L -> key L g = g -> makeStar (grid_cap L) (the_group L) g = Ok (star_at L g) /\ NoDup (star_at L g) /\ forall v, v ∈ star_at L g <-> key L v = g.
Proof.
  intros HL Hg. destruct (star_ok L g HL) as (st & E & HN & HI). assert (star_at L g = st) as -> by (unfold star_at; by rewrite E). split; [done|]. split; [done|]. intros v. by apply HI.
Qed.
Lemma grid_run L roots : three L -> forall s, (forall g, g ∈ roots -> key L g = g) ->
  exists s' ids, run (grid_step (grid_cap L) (the_group L)) s roots = Ok s' /\ gWaves s' = gWaves s ++ (roots ≫= star_at L) /\
    gIds s' = gIds s ++ ids /\ length ids = length roots /\ gSizes s' = gSizes s ++ map (fun g => length (star_at L g)) roots /\
    forall i g, roots !! i = Some g -> exists id, ids !! i = Some id /\ take (length (star_at L g)) (drop id (gWaves s')) = star_at L g.
Proof.
  intros HL. induction roots as [|g roots IH]; intros s HR.
  - exists s, []. cbn. rewrite !app_nil_r. split_and!; try done.
  - destruct (star_at_ok L g HL) as (E & _ & _); [apply HR; left|]. cbn [run]. unfold grid_step at 1. rewrite E. cbn [obind].
    destruct (IH (Grid (gWaves s ++ star_at L g) (gIds s ++ [length (gWaves s)]) (gSizes s ++ [length (star_at L g)]))) as (s' & ids & H1 & H2 & H3 & H4 & H5 & H6); [intros; apply HR; by right|].
    cbn [gWaves gIds gSizes] in *. exists s', (length (gWaves s) :: ids). split; [done|]. split; [rewrite H2, <- app_assoc; done|]. split; [rewrite H3, <- app_assoc; done|].
    split; [cbn; by rewrite H4|]. split; [rewrite H5, <- app_assoc; done|]. intros [|i] g' Hi; cbn in Hi.
    + injection Hi as <-. eexists. split; [done|]. rewrite H2, <- app_assoc, drop_app, take_app. done.
    + by apply H6.
Qed.
Lemma grid_read_eq L H fuel : three L -> (49 <= fuel)%nat -> grid_read fuel L H = Some (
  let? s := run (grid_step (grid_cap L) (the_group L)) (Grid [] [] []) (grid_roots L H) in
  if negb (Nat.eqb (length (gIds s)) (grid_nStar L H)) then Throw else
  if negb (Nat.eqb (length (gWaves s)) ((2 * H + 1) * (2 * H + 1) * (2 * H + 1))) then Throw else Ok s).
Proof.
  intros HL Hf. pose proof (build_eq L fuel HL Hf) as E. generalize dependent (the_group L). intros G E.
  unfold grid_read. destruct HL as [-> |[-> | ->]]; destruct (makeCompleteGroup _ _) as [G'|]; [|discriminate E| |discriminate E| |discriminate E]; injection E as ->; reflexivity.
Qed.
Lemma cube_count H l : NoDup l -> (forall v, v ∈ l <-> in_grid (Z.of_nat H) v) -> length l = ((2 * H + 1) * (2 * H + 1) * (2 * H + 1))%nat.
Proof.
  intros HN HI. set (r := seqZ (- Z.of_nat H) (2 * Z.of_nat H + 1)). set (c := x ← r; y ← r; z ← r; [V3 x y z]).
  assert (NR : NoDup r) by apply NoDup_seqZ.
  assert (NC : NoDup c).
  { unfold c. apply bind_NoDup; [done| |].
    - intros x _. apply bind_NoDup; [done| |].
      + intros y _. apply bind_NoDup; [done|intros; apply NoDup_singleton|]. intros z z' b _ _ ->%elem_of_list_singleton E%elem_of_list_singleton. by injection E.
      + intros y y' b _ _ (z & ->%elem_of_list_singleton & _)%elem_of_list_bind (z' & E%elem_of_list_singleton & _)%elem_of_list_bind. by injection E.
    - intros x x' b _ _ (y & (z & ->%elem_of_list_singleton & _)%elem_of_list_bind & _)%elem_of_list_bind (y' & (z' & E%elem_of_list_singleton & _)%elem_of_list_bind & _)%elem_of_list_bind.
      by injection E. }
  assert (CI : forall v, v ∈ c <-> in_grid (Z.of_nat H) v).
  { intros [x y z]. unfold c, in_grid. cbn [vx vy vz]. rewrite elem_of_list_bind. split.
    - intros (x' & (y' & (z' & E%elem_of_list_singleton & Hz)%elem_of_list_bind & Hy)%elem_of_list_bind & Hx). injection E as -> -> ->. apply elem_of_seqZ in Hx, Hy, Hz. lia.
    - intros (H1 & H2 & H3). exists x. split; [|apply elem_of_seqZ; lia]. apply elem_of_list_bind. exists y. split; [|apply elem_of_seqZ; lia].
      apply elem_of_list_bind. exists z. split; [left|apply elem_of_seqZ; lia]. }
  assert (length l = length c) as ->.
  { apply Permutation_length, NoDup_Permutation; [done|done|]. intros v. by rewrite HI, CI. }
  assert (LR : length r = (2 * H + 1)%nat) by (unfold r; rewrite seqZ_length; lia). unfold c.
  rewrite (bind_length_const _ _ ((2 * H + 1) * (2 * H + 1))%nat); [rewrite LR; lia|]. intros x _.
  rewrite (bind_length_const _ _ (2 * H + 1)%nat); [by rewrite LR|]. intros y _. rewrite (bind_length_const _ _ 1%nat) by done. rewrite LR. lia.
Qed.

(** C104.  For cubic, tetragonal and orthorhombic lattices and every hMax readParameters succeeds: waveIntVectors_ holds every vector with components
    between -hMax and hMax once, there are nStar_ stars, and the stars are the classes of vectors equivalent by symmetry: each block holds exactly the vectors
    equivalent to its first, and every vector is in one block only. *)
Theorem grid_correct :
  forall L H fuel, three L -> (49 <= fuel)%nat ->
  exists s, grid_read fuel L H = Some (Ok s) /\ NoDup (gWaves s) /\ (forall v, v ∈ gWaves s <-> in_grid (Z.of_nat H) v) /\
    length (gWaves s) = ((2 * H + 1) * (2 * H + 1) * (2 * H + 1))%nat /\ length (gIds s) = grid_nStar L H /\ length (gSizes s) = grid_nStar L H /\
    (forall i id n, gIds s !! i = Some id -> gSizes s !! i = Some n ->
      length (take n (drop id (gWaves s))) = n /\ exists r, gWaves s !! id = Some r /\ forall v, v ∈ take n (drop id (gWaves s)) <-> equivalent (sym_of L) r v) /\
    (forall v, v ∈ gWaves s -> exists! i, exists id n, gIds s !! i = Some id /\ gSizes s !! i = Some n /\ v ∈ take n (drop id (gWaves s))).
Proof.
  intros L H fuel HL Hf. destruct (grid_run L (grid_roots L H) HL (Grid [] [] [])) as (s & ids & H1 & H2 & H3 & H4 & H5 & H6).
  { intros g [? _]%roots_iff; done. }
  cbn [gWaves gIds gSizes app] in *. subst ids.
  assert (WI : forall v, v ∈ gWaves s <-> in_grid (Z.of_nat H) v).
  { intros v. rewrite H2, elem_of_list_bind. split.
    - intros (g & Hv & [HK (G1 & G2 & G3)]%roots_iff); [|done]. apply star_at_ok in Hv; [|done|done]. destruct v as [x y z], g as [a b c]. unfold in_grid in *. cbn [vx vy vz] in *.
      clear - Hv HL G1 G2 G3. destruct HL as [-> |[-> | ->]]; unfold key in Hv; cbn [vx vy vz] in Hv; injection Hv as <- <- <-; lia.
    - intros (G1 & G2 & G3).
      assert (HK : key L (key L v) = key L v /\ in_grid (Z.of_nat H) (key L v)).
      { destruct v as [x y z]. unfold in_grid in *. cbn [vx vy vz] in *. generalize dependent (Z.abs_nonneg x). generalize dependent (Z.abs_nonneg y). generalize dependent (Z.abs_nonneg z).
        unfold key. cbn [vx vy vz]. revert G1 G2 G3. generalize (Z.abs x), (Z.abs y), (Z.abs z). intros a b c G1 G2 G3 N1 N2 N3.
        destruct HL as [-> |[-> | ->]]; cbn [vx vy vz]; (split; [f_equal; lia|lia]). }
      exists (key L v). split; [by apply (proj2 (proj2 (star_at_ok L (key L v) HL (proj1 HK))))|]. by apply roots_iff. }
  assert (WN : NoDup (gWaves s)).
  { rewrite H2. apply bind_NoDup; [apply roots_NoDup| |].
    - intros g Hg. apply roots_iff in Hg as [HK _]; [|done]. apply (star_at_ok L g HL HK).
    - intros g g' v Hg Hg' Hv Hv'. apply roots_iff in Hg as [HK _]; [|done]. apply roots_iff in Hg' as [HK' _]; [|done]. apply star_at_ok in Hv, Hv'; [|done|done|done|done]. congruence. }
  assert (WC := cube_count H _ WN WI). exists s. split.
  { rewrite grid_read_eq by done. rewrite H1. cbn [obind]. rewrite H4, roots_length, Nat.eqb_refl, WC, Nat.eqb_refl by done. done. }
  split; [done|]. split; [done|]. split; [done|]. split; [by rewrite H4, roots_length|]. split; [by rewrite H5, map_length, roots_length|].
  assert (Block : forall i id n, gIds s !! i = Some id -> gSizes s !! i = Some n -> exists g, grid_roots L H !! i = Some g /\ key L g = g /\ n = length (star_at L g) /\ take n (drop id (gWaves s)) = star_at L g).
  { intros i id n Hi Hn. rewrite H5, list_lookup_fmap in Hn. apply fmap_Some in Hn as (g & Hg & ->). destruct (H6 i g Hg) as (id' & E & ET). rewrite Hi in E. injection E as <-.
    exists g. split; [done|]. split; [|done]. apply elem_of_list_lookup_2, roots_iff in Hg; [|done]. tauto. }
  split.
  - intros i id n Hi Hn. destruct (Block i id n Hi Hn) as (g & Hg & HK & -> & ET). rewrite ET. split; [done|].
    destruct (star_at_ok L g HL HK) as (_ & _ & SI). destruct (star_at L g) as [|r st] eqn:ES; [exfalso; by apply (not_elem_of_nil g), SI|].
    exists r. split.
    + destruct (drop id (gWaves s)) as [|r' w] eqn:ED; [done|]. cbn in ET. injection ET as -> _. rewrite <- (Nat.add_0_r id), <- lookup_drop, ED. done.
    + intros v. rewrite SI, key_iff by done. assert (key L r = g) as -> by (apply SI; left). done.
  - intros v Hv. rewrite H2 in Hv. apply elem_of_list_bind in Hv as (g & Hv & [i Hi]%elem_of_list_lookup). exists i. split.
    + destruct (H6 i g Hi) as (id & E & ET). exists id, (length (star_at L g)). split; [done|]. split; [rewrite H5, list_lookup_fmap, Hi; done|]. by rewrite ET.
    + intros j (id & n & Hj & Hn & Hvj). destruct (Block j id n Hj Hn) as (g' & Hg' & HK' & -> & ET). rewrite ET in Hvj.
      assert (HK : key L g = g) by (apply elem_of_list_lookup_2, roots_iff in Hi; tauto). apply star_at_ok in Hv, Hvj; [|done|done|done|done].
      eapply NoDup_lookup; [apply (roots_NoDup L H)|exact Hi|]. by rewrite <- Hv, Hvj.
Qed.
(** For the other lattices nothing is read: there are no stars, and none of the (2 hMax + 1)^3 waves is assigned; no error is reported. *)
Theorem grid_other_refuted : forall L H fuel, ~ three L -> grid_read fuel L H = Some (Ok (Grid [] [] [])).
Proof. intros L H fuel HL. unfold three in HL. destruct L; try done; exfalso; tauto. Qed.

(** * Examples *)
Example cubic_group_example : length (the_group Cubic) = 48%nat /\ length (the_group Tetragonal) = 16%nat /\ length (the_group Orthorhombic) = 8%nat /\ Forall orthogonal (grid_gens Cubic).
Proof. split; [vm_compute; done|]. split; [vm_compute; done|]. split; [vm_compute; done|]. repeat constructor; vm_compute; tauto. Qed.
Example star_example : exists star, makeStar 48 (the_group Cubic) (V3 2 1 0) = Ok star /\ length star = 24%nat.
Proof. eexists. split; [vm_compute; reflexivity|]. done. Qed.
Example grid_example : exists s, grid_read 49 Cubic 2 = Some (Ok s) /\ gSizes s = [1; 6; 12; 8; 6; 24; 24; 12; 24; 8]%nat /\ length (gWaves s) = 125%nat.
Proof. eexists. split; [vm_compute; reflexivity|]. split; reflexivity. Qed.
Example grid_other_example : ~ three Hexagonal. Proof. unfold three. intuition discriminate. Qed.

Print Assumptions complete_group_correct.
Print Assumptions valid_group_correct.
Print Assumptions complete_group_diverges.
Print Assumptions star_correct.
Print Assumptions grid_correct.
Print Assumptions grid_other_refuted.
