From stdpp Require Import gmap.
From Verif Require Import Base Vec3 BoxSpec McCellModel McCellSpec McCellProofs DomainModel DomainProofs SpeciesModel SpeciesProofs.
From Verif Require Import SpeciesBuild CellListModel CellListSpec.
From Coq Require Import Reals Lra.
Local Open Scope R_scope.

(** ** One axis *)
Lemma axis_num_count len cutoff : 0 < cutoff -> 0 < len -> grid_count len cutoff (axis_num len cutoff).
Proof.
  intros Hc Hl. unfold axis_num.
  assert (0 <= len / cutoff) as H0 by (apply Rlt_le, Rdiv_lt_0_compat; lra).
  pose proof (Rtrunc_spec _ H0) as [H1 H2].
  set (n := Rtrunc (len / cutoff)) in *.
  assert (len < (IZR n + 1) * cutoff).
  { apply (Rmult_lt_compat_r cutoff) in H2; [|done]. unfold Rdiv in H2. rewrite Rmult_assoc, Rinv_l in H2; lra. }
  assert (IZR n * cutoff <= len).
  { apply (Rmult_le_compat_r cutoff) in H1; [|lra]. unfold Rdiv in H1. rewrite Rmult_assoc, Rinv_l in H1; lra. }
  unfold grid_count. destruct (Z.ltb_spec n 1).
  - split; [lia|]. split; [|by left]. assert (IZR n <= 0) by (apply IZR_le; lia).
    assert ((IZR n + 1) * cutoff <= 1 * cutoff) by (apply Rmult_le_compat_r; lra). change (IZR (1 + 1)) with 2. lra.
  - split; [lia|]. rewrite plus_IZR. split; [done|by right].
Qed.

Lemma trunc_range n g : (1 <= n)%Z -> 0 <= g < 1 -> let c := Rtrunc (g * IZR n) in
  (0 <= c < n)%Z /\ IZR c <= g * IZR n < IZR c + 1.
Proof.
  intros Hn Hg c. assert (1 <= IZR n) by (by apply IZR_le).
  assert (0 <= g * IZR n) as H0 by nra.
  pose proof (Rtrunc_spec _ H0) as Hr. fold c in Hr. split; [|done]. split.
  - assert (IZR (-1) < IZR c) as Hl by lra. apply lt_IZR in Hl. lia.
  - apply lt_IZR. nra.
Qed.

Lemma in_cell_axis n c g : (1 <= n)%Z -> 0 <= g ->
  (IZR c / IZR n <= g < (IZR c + 1) / IZR n <-> Rtrunc (g * IZR n) = c).
Proof.
  intros Hn Hg. assert (1 <= IZR n) by (by apply IZR_le).
  assert (Hd : forall a, a / IZR n <= g <-> a <= g * IZR n).
  { intros a. split; intros Hl.
    - apply (Rmult_le_compat_r (IZR n)) in Hl; [|lra]. unfold Rdiv in Hl. rewrite Rmult_assoc, Rinv_l in Hl; lra.
    - apply (Rmult_le_reg_r (IZR n)); [lra|]. unfold Rdiv. rewrite Rmult_assoc, Rinv_l; lra. }
  assert (0 <= g * IZR n) by nra. pose proof (Rtrunc_spec (g * IZR n)) as Ht.
  split.
  - intros [H1 H2]. apply Rtrunc_unique; [done|]. apply Hd in H1. split; [done|].
    destruct (Rlt_or_le (g * IZR n) (IZR c + 1)) as [|H3]; [done|]. apply Hd in H3. lra.
  - intros <-. destruct Ht as [H1 H2]; [done|]. split; [by apply Hd|].
    destruct (Rlt_or_le g ((IZR (Rtrunc (g * IZR n)) + 1) / IZR n)) as [|H3]; [done|]. apply Hd in H3. lra.
Qed.

(** shift of one coordinate, and the displacements, as functions of the number of cells *)
Definition shiftz (n x : Z) : Z := if (n - 1 <? x)%Z then (x - n)%Z else if (x <? 0)%Z then (x + n)%Z else x.
Definition delz (n : Z) : list Z := seqZ (axis_dels n).1 ((axis_dels n).2 - (axis_dels n).1 + 1).

Lemma delz_elem n d : (1 <= n)%Z -> d ∈ delz n <-> (if (2 <? n)%Z then -1 <= d <= 1 else if (n =? 2)%Z then -1 <= d <= 0 else d = 0)%Z.
Proof.
  intros Hn. unfold delz, axis_dels. rewrite elem_of_seqZ.
  destruct (Z.ltb_spec 2 n); [cbn [fst snd]; lia|]. destruct (Z.eqb_spec n 2); cbn [fst snd]; lia.
Qed.

Lemma delz_length n : (1 <= n)%Z -> (length (delz n) <= 3)%nat.
Proof.
  intros Hn. unfold delz, axis_dels. rewrite seqZ_length.
  destruct (2 <? n)%Z; [simpl; lia|]. destruct (n =? 2)%Z; simpl; lia.
Qed.

Lemma shiftz_range n c d : (1 <= n)%Z -> (0 <= c < n)%Z -> d ∈ delz n -> (0 <= shiftz n (c + d) < n)%Z.
Proof.
  intros Hn Hc Hd%delz_elem; [|done]. unfold shiftz.
  destruct (Z.ltb_spec (n - 1) (c + d)); [|destruct (Z.ltb_spec (c + d) 0)];
    destruct (Z.ltb_spec 2 n); try lia; destruct (Z.eqb_spec n 2); lia.
Qed.

Lemma shiftz_inj n c d1 d2 : (1 <= n)%Z -> (0 <= c < n)%Z -> d1 ∈ delz n -> d2 ∈ delz n ->
  shiftz n (c + d1) = shiftz n (c + d2) -> d1 = d2.
Proof.
  intros Hn Hc Hd1%delz_elem Hd2%delz_elem; [|done..]. unfold shiftz.
  destruct (Z.ltb_spec (n - 1) (c + d1)), (Z.ltb_spec (n - 1) (c + d2)),
    (Z.ltb_spec (c + d1) 0), (Z.ltb_spec (c + d2) 0);
    destruct (Z.ltb_spec 2 n); try lia; destruct (Z.eqb_spec n 2); lia.
Qed.

(** cells that touch are reached *)
Lemma shiftz_adjacent n c1 c2 : (1 <= n)%Z -> (0 <= c1 < n)%Z -> (0 <= c2 < n)%Z ->
  (exists k, -1 <= c1 - c2 + k * n <= 1)%Z <-> exists d, d ∈ delz n /\ shiftz n (c1 + d) = c2.
Proof.
  intros Hn H1 H2. split.
  - intros [k Hk]. assert (k = -1 \/ k = 0 \/ k = 1 \/ n <= 2)%Z as Hk' by nia.
    destruct (Z.ltb_spec 2 n) as [H3|H3].
    + exists (c2 - c1 - k * n)%Z. split.
      * apply delz_elem; [done|]. rewrite (proj2 (Z.ltb_lt _ _)) by lia. lia.
      * unfold shiftz. destruct (Z.ltb_spec (n - 1) (c1 + (c2 - c1 - k * n))); [|destruct (Z.ltb_spec (c1 + (c2 - c1 - k * n)) 0)]; nia.
    + exists (if decide (c1 = c2) then 0 else -1)%Z. split.
      * apply delz_elem; [done|]. rewrite (proj2 (Z.ltb_ge _ _)) by lia. destruct (Z.eqb_spec n 2); case_decide; lia.
      * unfold shiftz. case_decide.
        -- destruct (Z.ltb_spec (n - 1) (c1 + 0)); [|destruct (Z.ltb_spec (c1 + 0) 0)]; lia.
        -- destruct (Z.ltb_spec (n - 1) (c1 + -1)); [|destruct (Z.ltb_spec (c1 + -1) 0)]; lia.
  - intros (d & Hd%delz_elem & <-); [|done]. unfold shiftz.
    assert (-1 <= d <= 1)%Z.
    { destruct (Z.ltb_spec 2 n); [lia|]. destruct (Z.eqb_spec n 2); lia. }
    destruct (Z.ltb_spec (n - 1) (c1 + d)); [exists (-1)%Z; lia|].
    destruct (Z.ltb_spec (c1 + d) 0); [exists 1%Z; lia|exists 0%Z; lia].
Qed.

Lemma near_axis len cutoff n g1 g2 (k : Z) : 0 < cutoff -> 0 < len -> grid_count len cutoff n ->
  0 <= g1 < 1 -> 0 <= g2 < 1 -> Rabs (g1 - g2 + IZR k) * len < cutoff ->
  exists k', (-1 <= Rtrunc (g1 * IZR n) - Rtrunc (g2 * IZR n) + k' * n <= 1)%Z.
Proof.
  intros Hc Hl (Hn & _ & Hw) Hg1 Hg2 Hk.
  destruct (trunc_range n g1 Hn Hg1) as [R1 T1]. destruct (trunc_range n g2 Hn Hg2) as [R2 T2].
  set (c1 := Rtrunc (g1 * IZR n)) in *. set (c2 := Rtrunc (g2 * IZR n)) in *.
  destruct Hw as [->|Hw]; [exists 0%Z; lia|].
  exists k. assert (1 <= IZR n) by (by apply IZR_le).
  assert (Rabs (g1 - g2 + IZR k) * IZR n < 1) as H1.
  { apply (Rmult_lt_reg_r cutoff); [done|]. pose proof (Rabs_pos (g1 - g2 + IZR k)). nra. }
  assert (-1 < (g1 - g2 + IZR k) * IZR n < 1) as H2.
  { revert H1. unfold Rabs. destruct (Rcase_abs _); nra. }
  assert (-2 < IZR c1 - IZR c2 + IZR k * IZR n < 2) as H3 by lra.
  rewrite <- mult_IZR, <- minus_IZR, <- plus_IZR in H3. destruct H3 as [H3 H4].
  apply lt_IZR in H3, H4. lia.
Qed.

(** ** Lists *)
Lemma nodup_flat_map {A B} (f : A -> list B) (l : list A) :
  NoDup l -> (forall x, x ∈ l -> NoDup (f x)) ->
  (forall x y b, x ∈ l -> y ∈ l -> b ∈ f x -> b ∈ f y -> x = y) -> NoDup (flat_map f l).
Proof.
  induction l as [|x l IH]; intros Hl Hf Hd; simpl; [constructor|].
  apply NoDup_cons in Hl as [Hx Hl]. apply NoDup_app. split; [apply Hf; left|]. split.
  - intros b Hb Hb'. apply elem_of_list_In, in_flat_map in Hb' as (y & Hy & Hb').
    apply elem_of_list_In in Hy, Hb'. rewrite (Hd x y b) in Hx; [done|left|by right|done|done].
  - apply IH; [done| |].
    + intros y Hy. apply Hf. by right.
    + intros y z b Hy Hz. apply Hd; by right.
Qed.
Lemma elem_flat_map {A B} (f : A -> list B) l b : b ∈ flat_map f l <-> exists x, x ∈ l /\ b ∈ f x.
Proof.
  rewrite elem_of_list_In, in_flat_map. split; intros (x & H1 & H2); exists x; rewrite ?elem_of_list_In in *; auto.
Qed.
Lemma foldM_flat {A B S} (f : S -> B -> outcome S) (g : A -> list B) l s :
  foldM (fun s x => foldM f s (g x)) s l = foldM f s (flat_map g l).
Proof.
  revert s. induction l as [|x l IH]; intros s; simpl; [done|]. rewrite foldM_app.
  destruct (foldM f s (g x)); simpl; auto.
Qed.
Lemma foldM_fmap {A B S} (f : S -> B -> outcome S) (g : A -> B) l s :
  foldM (fun s x => f s (g x)) s l = foldM f s (map g l).
Proof. revert s. induction l as [|x l IH]; intros s; simpl; [done|]. destruct (f s (g x)); simpl; auto. Qed.
Lemma flat_map_length {A B} (f : A -> list B) l k : (forall x, x ∈ l -> (length (f x) <= k)%nat) ->
  (length (flat_map f l) <= length l * k)%nat.
Proof.
  induction l as [|x l IH]; intros H; simpl; [lia|]. rewrite app_length.
  pose proof (H x ltac:(left)). specialize (IH ltac:(intros; apply H; by right)). lia.
Qed.

(** ** The grid *)
Record gwf (l : clist) (n : vec3 Z) : Prop := {
  g_pos : forall i, (i < 3)%nat -> (1 <= vget n i)%Z;
  g_num : clNum l = n;
  g_inv : clInv l = vmap IZR n;
  g_mind : clMinDel l = vmap (fun n => (axis_dels n).1) n;
  g_maxd : clMaxDel l = vmap (fun n => (axis_dels n).2) n;
  g_min : clMin l = V3 0%Z 0%Z 0%Z;
  g_max : clMax l = vmap (fun n => n - 1)%Z n;
  g_yz : clYZ l = (vy n * vz n)%Z;
  g_tot : clTot l = (vx n * (vy n * vz n))%Z;
  g_cap : (clTot l <= Z.of_nat (length (clCells l)))%Z
}.

Definition in_grid (n c : vec3 Z) : Prop := forall i, (i < 3)%nat -> (0 <= vget c i < vget n i)%Z.
Definition cidx (n c : vec3 Z) : Z := (vx c * (vy n * vz n) + vy c * vz n + vz c)%Z.
Definition ccell (n : vec3 Z) (g : vec3 R) : vec3 Z :=
  V3 (Rtrunc (vx g * IZR (vx n))) (Rtrunc (vy g * IZR (vy n))) (Rtrunc (vz g * IZR (vz n))).

Lemma cidx_range n c : in_grid n c -> (0 <= cidx n c < vx n * (vy n * vz n))%Z.
Proof.
  intros H. pose proof (H 0%nat ltac:(lia)). pose proof (H 1%nat ltac:(lia)). pose proof (H 2%nat ltac:(lia)).
  destruct n as [nx ny nz], c as [x y z]. unfold cidx. simpl in *.
  assert (0 <= y * nz + z < ny * nz)%Z as Hm by nia. set (m := (ny * nz)%Z) in *. nia.
Qed.
Lemma cidx_inj n c1 c2 : in_grid n c1 -> in_grid n c2 -> cidx n c1 = cidx n c2 -> c1 = c2.
Proof.
  intros H G E. pose proof (H 0%nat ltac:(lia)). pose proof (H 1%nat ltac:(lia)). pose proof (H 2%nat ltac:(lia)).
  pose proof (G 0%nat ltac:(lia)). pose proof (G 1%nat ltac:(lia)). pose proof (G 2%nat ltac:(lia)).
  destruct n as [nx ny nz], c1 as [x y z], c2 as [x' y' z']. unfold cidx in E. simpl in *.
  assert (z = z') as ->.
  { assert (z mod nz = z' mod nz)%Z as Em.
    { replace z with (x * (ny * nz) + y * nz + z + (- (x * ny + y)) * nz)%Z by ring.
      rewrite E, Z.mod_add by lia.
      replace (x' * (ny * nz) + y' * nz + z')%Z with (z' + (x' * ny + y') * nz)%Z by ring. apply Z.mod_add. lia. }
    rewrite !Z.mod_small in Em; lia. }
  assert (x * ny + y = x' * ny + y')%Z as E' by nia.
  assert (y = y') as ->.
  { assert (y mod ny = y' mod ny)%Z as Em.
    { replace y with (x * ny + y + (- x) * ny)%Z by ring.
      rewrite E', Z.mod_add by lia. replace (x' * ny + y')%Z with (y' + x' * ny)%Z by ring. apply Z.mod_add. lia. }
    rewrite !Z.mod_small in Em; lia. }
  f_equal. nia.
Qed.

Section Grid.
  Context (l : clist) (n : vec3 Z) (W : gwf l n).

  Lemma g_coord_index c : cl_coord_index l c = cidx n c.
  Proof. unfold cl_coord_index, cidx. by rewrite (g_yz _ _ W), (g_num _ _ W). Qed.
  Lemma g_index_coord c : in_grid n c -> cl_index_coord l (cidx n c) = c.
  Proof.
    intros H. pose proof (H 0%nat ltac:(lia)). pose proof (H 1%nat ltac:(lia)). pose proof (H 2%nat ltac:(lia)).
    unfold cl_index_coord, cidx. rewrite (g_yz _ _ W), (g_num _ _ W).
    destruct n as [nx ny nz], c as [x y z]. simpl in *.
    assert (Z.quot (x * (ny * nz) + y * nz + z) (ny * nz) = x) as ->.
    { assert (0 <= y * nz + z < ny * nz)%Z as Hm by nia.
      replace (x * (ny * nz) + y * nz + z)%Z with (x * (ny * nz) + (y * nz + z))%Z by ring.
      set (m := (ny * nz)%Z) in *. set (r := (y * nz + z)%Z) in *.
      rewrite Z.quot_div_nonneg by nia. symmetry. apply (Z.div_unique_pos _ _ _ r); nia. }
    replace (x * (ny * nz) + y * nz + z - x * (ny * nz))%Z with (y * nz + z)%Z by ring.
    assert (Z.quot (y * nz + z) nz = y) as ->.
    { rewrite Z.quot_div_nonneg by nia. symmetry. apply (Z.div_unique_pos _ _ _ z); nia. }
    f_equal. ring.
  Qed.
  Lemma g_index_ex i : (0 <= i < clTot l)%Z -> exists c, in_grid n c /\ i = cidx n c.
  Proof.
    intros Hi. rewrite (g_tot _ _ W) in Hi.
    pose proof (g_pos _ _ W 0%nat ltac:(lia)). pose proof (g_pos _ _ W 1%nat ltac:(lia)).
    pose proof (g_pos _ _ W 2%nat ltac:(lia)). destruct n as [nx ny nz]. simpl in *.
    exists (V3 (i / (ny * nz)) ((i mod (ny * nz)) / nz) ((i mod (ny * nz)) mod nz))%Z.
    pose proof (Z.mod_pos_bound i (ny * nz) ltac:(nia)) as Hm.
    pose proof (Z.mod_pos_bound (i mod (ny * nz)) nz ltac:(lia)) as Hm'.
    split.
    - intros [|[|[|]]] Hj; simpl; try lia.
      + split; [apply Z.div_pos; nia|]. apply Z.div_lt_upper_bound; nia.
      + split; [apply Z.div_pos; nia|]. apply Z.div_lt_upper_bound; nia.
    - unfold cidx. simpl. pose proof (Z.div_mod i (ny * nz) ltac:(nia)) as E.
      pose proof (Z.div_mod (i mod (ny * nz)) nz ltac:(lia)) as E'. nia.
  Qed.
  Lemma g_index toGen p : primary (toGen p) -> cl_index toGen l p = cidx n (ccell n (toGen p)) /\ in_grid n (ccell n (toGen p)).
  Proof.
    intros Hp. split.
    - unfold cl_index, cidx, ccell. rewrite (g_yz _ _ W), (g_num _ _ W), (g_inv _ _ W). simpl. ring.
    - intros i Hi. pose proof (trunc_range _ _ (g_pos _ _ W i Hi) (Hp i Hi)) as [H _].
      destruct i as [|[|[|]]]; try lia; exact H.
  Qed.
  Lemma g_shift i x : (i < 3)%nat -> cl_shift l i x = shiftz (vget n i) x.
  Proof.
    intros Hi. unfold cl_shift, shiftz. rewrite (g_max _ _ W), (g_min _ _ W), (g_num _ _ W).
    destruct i as [|[|[|]]]; try lia; done.
  Qed.
  Lemma g_dels i : (i < 3)%nat -> dels l i = delz (vget n i).
  Proof.
    intros Hi. unfold dels, delz. rewrite (g_mind _ _ W), (g_maxd _ _ W).
    destruct i as [|[|[|]]]; try lia; done.
  Qed.

  (** indices of the cells visited from cell [c] *)
  Definition axis_nb (c : vec3 Z) (i : nat) : list Z := map (fun d => shiftz (vget n i) (vget c i + d)) (delz (vget n i)).
  Definition nbr (c : vec3 Z) : list Z :=
    flat_map (fun x => flat_map (fun y => map (fun z => cidx n (V3 x y z)) (axis_nb c 2)) (axis_nb c 1)) (axis_nb c 0).

  Lemma axis_nb_range c i x : (i < 3)%nat -> in_grid n c -> x ∈ axis_nb c i -> (0 <= x < vget n i)%Z.
  Proof.
    intros Hi Hc Hx. apply elem_of_list_fmap in Hx as (d & -> & Hd).
    apply shiftz_range; [by apply W|by apply Hc|done].
  Qed.
  Lemma axis_nb_nodup c i : (i < 3)%nat -> in_grid n c -> NoDup (axis_nb c i).
  Proof.
    intros Hi Hc. unfold axis_nb. apply NoDup_fmap_2_strong; [|apply NoDup_seqZ].
    intros d1 d2 H1 H2 E. eapply shiftz_inj; [by apply W|by apply Hc|done..].
  Qed.
  Lemma axis_nb_length c i : (i < 3)%nat -> (length (axis_nb c i) <= 3)%nat.
  Proof. intros Hi. unfold axis_nb. rewrite map_length. by apply delz_length, W. Qed.

  Lemma nbr_elem c j : in_grid n c ->
    j ∈ nbr c <-> exists x y z, x ∈ axis_nb c 0 /\ y ∈ axis_nb c 1 /\ z ∈ axis_nb c 2 /\ j = cidx n (V3 x y z).
  Proof.
    intros Hc. unfold nbr. rewrite elem_flat_map. split.
    - intros (x & Hx & H). apply elem_flat_map in H as (y & Hy & H). apply elem_of_list_fmap in H as (z & -> & Hz).
      by exists x, y, z.
    - intros (x & y & z & Hx & Hy & Hz & ->). exists x. split; [done|]. apply elem_flat_map. exists y. split; [done|].
      by apply (elem_of_list_fmap_1 (fun z => cidx n (V3 x y z))).
  Qed.
  Lemma nbr_in c x y z : in_grid n c -> x ∈ axis_nb c 0 -> y ∈ axis_nb c 1 -> z ∈ axis_nb c 2 -> in_grid n (V3 x y z).
  Proof.
    intros Hc Hx Hy Hz [|[|[|]]] Hi; simpl; try lia.
    - exact (axis_nb_range c 0 x Hi Hc Hx).
    - exact (axis_nb_range c 1 y Hi Hc Hy).
    - exact (axis_nb_range c 2 z Hi Hc Hz).
  Qed.
  Lemma nbr_adjacent c c' : in_grid n c -> in_grid n c' -> cidx n c' ∈ nbr c <-> adjacent n c c'.
  Proof.
    intros Hc Hc'. rewrite nbr_elem by done. split.
    - intros (x & y & z & Hx & Hy & Hz & E). apply cidx_inj in E; [|done|by apply (nbr_in c)].
      subst c'. intros i Hi.
      assert (exists d, d ∈ delz (vget n i) /\ shiftz (vget n i) (vget c i + d) = vget (V3 x y z) i) as Hd.
      { destruct i as [|[|[|]]]; try lia.
        - apply elem_of_list_fmap in Hx as (d & -> & Hd). by exists d.
        - apply elem_of_list_fmap in Hy as (d & -> & Hd). by exists d.
        - apply elem_of_list_fmap in Hz as (d & -> & Hd). by exists d. }
      apply shiftz_adjacent; [by apply W|by apply Hc|by apply Hc'|done].
    - intros Ha. exists (vx c'), (vy c'), (vz c').
      assert (forall i, (i < 3)%nat -> vget c' i ∈ axis_nb c i) as H.
      { intros i Hi. specialize (Ha i Hi). apply shiftz_adjacent in Ha; [|by apply W|by apply Hc|by apply Hc'].
        destruct Ha as (d & Hd & <-). apply elem_of_list_fmap. by exists d. }
      split; [exact (H 0%nat ltac:(lia))|]. split; [exact (H 1%nat ltac:(lia))|].
      split; [exact (H 2%nat ltac:(lia))|]. by destruct c'.
  Qed.
  Lemma nbr_nodup c : in_grid n c -> NoDup (nbr c).
  Proof.
    intros Hc. unfold nbr. apply nodup_flat_map; [by apply axis_nb_nodup; [lia|]| |].
    - intros x Hx. apply nodup_flat_map; [by apply axis_nb_nodup; [lia|]| |].
      + intros y Hy. apply NoDup_fmap_2_strong; [|by apply axis_nb_nodup; [lia|]].
        intros z1 z2 H1 H2 E. apply cidx_inj in E; [|by apply (nbr_in c)..]. congruence.
      + intros y1 y2 b H1 H2 Hb1 Hb2.
        apply elem_of_list_fmap in Hb1 as (z1 & -> & Hz1). apply elem_of_list_fmap in Hb2 as (z2 & E & Hz2).
        apply cidx_inj in E; [|by apply (nbr_in c)..]. congruence.
    - intros x1 x2 b H1 H2 Hb1 Hb2.
      apply elem_flat_map in Hb1 as (y1 & Hy1 & Hb1). apply elem_of_list_fmap in Hb1 as (z1 & -> & Hz1).
      apply elem_flat_map in Hb2 as (y2 & Hy2 & Hb2). apply elem_of_list_fmap in Hb2 as (z2 & E & Hz2).
      apply cidx_inj in E; [|by apply (nbr_in c)..]. congruence.
  Qed.
  Lemma nbr_length c : (length (nbr c) <= 27)%nat.
  Proof.
    unfold nbr. etrans; [apply (flat_map_length _ _ 9)|].
    - intros x _. etrans; [apply (flat_map_length _ _ 3)|].
      + intros y _. rewrite map_length. apply axis_nb_length. lia.
      + pose proof (axis_nb_length c 1 ltac:(lia)). lia.
    - pose proof (axis_nb_length c 0 ltac:(lia)). lia.
  Qed.
  Lemma nbr_range c j : in_grid n c -> j ∈ nbr c -> (0 <= j < clTot l)%Z.
  Proof.
    intros Hc Hj. apply nbr_elem in Hj as (x & y & z & Hx & Hy & Hz & ->); [|done].
    rewrite (g_tot _ _ W). apply cidx_range. by apply (nbr_in c).
  Qed.
  Lemma nbr_self c : in_grid n c -> cidx n c ∈ nbr c.
  Proof. intros Hc. apply nbr_adjacent; [done..|]. intros i Hi. exists 0%Z. lia. Qed.
End Grid.

(** ** The neighbour loop *)
Section Neighbors.
  Context (M : nat).
  Lemma nb_append_list xs : forall nb, (length nb + length xs <= 27 * M)%nat ->
    foldM (nb_append M) nb xs = Ok (nb ++ xs).
  Proof.
    induction xs as [|x xs IH]; intros nb H; cbn [foldM]; [by rewrite app_nil_r|].
    cbn [length] in H. unfold nb_append at 1. rewrite decide_True by lia. cbn [obind].
    rewrite IH by (rewrite app_length; simpl; lia). by rewrite <- app_assoc.
  Qed.

  Definition others (ic : Z) (js : list Z) : list Z := filter (fun j => j <> ic) js.
  Definition atoms_of (cells : list cell) (j : Z) : list nat :=
    match cells !! Z.to_nat j with Some c => cell_atoms c | None => [] end.

  Lemma nb_loop cells ic js : forall nb,
    (forall j, j ∈ js -> (0 <= j < Z.of_nat (length cells))%Z) ->
    (length nb + length (flat_map (atoms_of cells) (others ic js)) <= 27 * M)%nat ->
    foldM (fun nb j => if decide (j = ic) then Ok nb else let? c := zget cells j in nb_cell M nb c) nb js
      = Ok (nb ++ flat_map (atoms_of cells) (others ic js)).
  Proof.
    induction js as [|j js IH]; intros nb Hr Hl; [by rewrite app_nil_r|].
    unfold others in *. cbn [foldM]. rewrite filter_cons. destruct (decide (j = ic)) as [->|Hj].
    - rewrite decide_False by auto. rewrite filter_cons, decide_False in Hl by auto. cbn [obind].
      apply IH; [|done]. intros; apply Hr; by right.
    - rewrite decide_True by auto. rewrite filter_cons, decide_True in Hl by auto.
      cbn [flat_map] in *. rewrite app_length in Hl.
      destruct (Hr j ltac:(left)) as [H0 H1].
      destruct (lookup_lt_is_Some_2 cells (Z.to_nat j) ltac:(lia)) as [c Hc].
      unfold atoms_of at 1. unfold atoms_of at 1 in Hl. rewrite Hc in *.
      rewrite (proj2 (zget_Ok cells j c) (conj H0 Hc)). cbn [obind].
      unfold nb_cell. rewrite nb_append_list by lia. cbn [obind]. rewrite IH.
      + by rewrite app_assoc.
      + intros; apply Hr; by right.
      + rewrite app_length. lia.
  Qed.

  Lemma neighbors_eq l n c : gwf l n -> in_grid n c ->
    (forall j, (0 <= j < clTot l)%Z -> (length (atoms_of (clCells l) j) <= M)%nat) ->
    cell_neighbors M l (cidx n c) =
      Ok (atoms_of (clCells l) (cidx n c) ++ flat_map (atoms_of (clCells l)) (others (cidx n c) (nbr n c)),
          length (atoms_of (clCells l) (cidx n c))).
  Proof.
    intros W Hc HM. unfold cell_neighbors. rewrite (g_index_coord _ _ W) by done.
    pose proof (cidx_range _ _ Hc) as Hi. rewrite <- (g_tot _ _ W) in Hi. pose proof (g_cap _ _ W) as Hcap.
    destruct (lookup_lt_is_Some_2 (clCells l) (Z.to_nat (cidx n c)) ltac:(lia)) as [c0 Hc0].
    rewrite (proj2 (zget_Ok _ _ c0) (conj (proj1 Hi) Hc0)). cbn [obind].
    assert (atoms_of (clCells l) (cidx n c) = cell_atoms c0) as E0 by (unfold atoms_of; by rewrite Hc0).
    pose proof (HM _ Hi) as HM0. rewrite E0 in *.
    unfold nb_cell at 1. rewrite nb_append_list by (simpl; lia). cbn [obind].
    assert (forall s, foldM (fun nb dx =>
      let jx := cl_shift l 0 (vx c + dx)%Z in
      foldM (fun nb dy =>
        let jy := cl_shift l 1 (vy c + dy)%Z in
        foldM (fun nb dz =>
          let jz := cl_shift l 2 (vz c + dz)%Z in
          let jc := cl_coord_index l (V3 jx jy jz) in
          if decide (jc = cidx n c) then Ok nb else
          let? c := zget (clCells l) jc in nb_cell M nb c) nb (dels l 2)) nb (dels l 1)) s (dels l 0)
      = foldM (fun nb j => if decide (j = cidx n c) then Ok nb else let? c := zget (clCells l) j in nb_cell M nb c) s (nbr n c)) as EL.
    { intros s. set (F := fun nb j => if decide (j = cidx n c) then Ok nb else let? c := zget (clCells l) j in nb_cell M nb c).
      unfold nbr. rewrite <- foldM_flat.
      unfold axis_nb at 3. rewrite <- (foldM_fmap (fun s x => foldM F s (flat_map (fun y => map (fun z => cidx n (V3 x y z)) (axis_nb n c 2)) (axis_nb n c 1)))).
      rewrite (g_dels _ _ W 0%nat) by lia. apply SpeciesBuild.foldM_ext. intros s1 dx _.
      cbv zeta. rewrite (g_shift _ _ W 0%nat) by lia. rewrite <- foldM_flat.
      unfold axis_nb at 2. rewrite <- (foldM_fmap (fun s y => foldM F s (map (fun z => cidx n (V3 _ y z)) (axis_nb n c 2)))).
      rewrite (g_dels _ _ W 1%nat) by lia. apply SpeciesBuild.foldM_ext. intros s2 dy _.
      rewrite (g_shift _ _ W 1%nat) by lia.
      rewrite <- foldM_fmap. unfold axis_nb. rewrite <- (foldM_fmap (fun s z => F s (cidx n (V3 _ _ z)))).
      rewrite (g_dels _ _ W 2%nat) by lia. apply SpeciesBuild.foldM_ext. intros s3 dz _.
      rewrite (g_shift _ _ W 2%nat) by lia. rewrite (g_coord_index _ _ W). reflexivity. }
    rewrite EL. rewrite nb_loop; cbn [obind app].
    - done.
    - intros j Hj. apply (nbr_range _ _ W) in Hj; [|done]. lia.
    - cbn [app]. unfold others.
      assert (length (cidx n c :: filter (fun j => j <> cidx n c) (nbr n c)) <= 27)%nat as H27.
      { etrans; [|apply (nbr_length _ _ W c)]. apply submseteq_length, NoDup_submseteq.
        - constructor; [rewrite elem_of_list_filter; tauto|]. apply NoDup_filter, (nbr_nodup _ _ W), Hc.
        - intros j Hj. apply elem_of_cons in Hj as [->|Hj]; [by apply (nbr_self _ _ W)|].
          by apply elem_of_list_filter in Hj as [_ ?]. }
      cbn [length] in H27.
      assert (length (flat_map (atoms_of (clCells l)) (filter (fun j => j <> cidx n c) (nbr n c)))
              <= length (filter (fun j => j <> cidx n c) (nbr n c)) * M)%nat.
      { apply flat_map_length. intros j Hj. apply elem_of_list_filter in Hj as [_ Hj]. apply HM.
        by apply (nbr_range _ _ W) in Hj. }
      nia.
  Qed.
End Neighbors.

(** ** Contents *)
Section Contents.
  Context (M cap : nat) (HM : (2 <= M)%nat) (toGen : vec3 R -> vec3 R) (n : vec3 Z).

  Definition ix (p : vec3 R) : Z := cidx n (ccell n (toGen p)).

  Record clinv (l : clist) (h : held_at) : Prop := {
    ci_wf : gwf l n;
    ci_cap : length (clTags l) = cap;
    ci_prim : forall a q, h !! a = Some q -> primary (toGen q) /\ (a < cap)%nat;
    ci_tag : forall a j p, clTags l !! a = Some (Some (j, p)) -> is_Some (h !! a);
    ci_cells : forall j c, clCells l !! j = Some c -> exists g S, inv M (Tagged c g) S /\
      (forall a, a ∈ S <-> exists q, h !! a = Some q /\ ix q = Z.of_nat j) /\
      (forall a p, g !! a = Some p <-> clTags l !! a = Some (Some (j, p)))
  }.

  Lemma clinv_clear l : gwf l n -> length (clTags l) = cap -> clinv (cl_clear M l) ∅.
  Proof.
    intros W Hc. split; cbn [cl_clear clTags clCells].
    - destruct W. split; cbn; try done. by rewrite replicate_length.
    - by rewrite replicate_length.
    - intros a q H. by rewrite lookup_empty in H.
    - intros a j p H. by apply lookup_replicate_1 in H as [? _].
    - intros j c H. apply lookup_replicate_1 in H as [-> _]. exists ∅, ∅. split; [|split].
      + apply inv_init. lia.
      + intros a. split; [set_solver|]. intros (q & H & _). by rewrite lookup_empty in H.
      + intros a p. rewrite lookup_empty. split; [done|]. intros H. by apply lookup_replicate_1 in H as [? _].
  Qed.

  Lemma gwf_put l cells tags : gwf l n -> length cells = length (clCells l) -> gwf (cl_put l cells tags) n.
  Proof. intros [] E. split; simpl; try done. by rewrite E. Qed.

  Lemma ix_range l p : gwf l n -> primary (toGen p) -> (0 <= ix p)%Z /\ (Z.to_nat (ix p) < length (clCells l))%nat.
  Proof.
    intros W Hp. destruct (g_index _ _ W toGen p Hp) as [_ Hg]. apply cidx_range in Hg.
    rewrite <- (g_tot _ _ W) in Hg. pose proof (g_cap _ _ W). unfold ix. lia.
  Qed.
  Lemma same_ix l p q : gwf l n -> primary (toGen p) -> primary (toGen q) ->
    same_cell n (toGen q) (toGen p) <-> ix q = ix p.
  Proof.
    intros W Hp Hq. destruct (g_index _ _ W toGen p Hp) as [_ Gp]. destruct (g_index _ _ W toGen q Hq) as [_ Gq].
    assert (Hin : forall c g, primary g -> in_cell n c g <-> c = ccell n g).
    { intros c g Hg. unfold in_cell. split.
      - intros H. destruct c as [x y z]. unfold ccell. f_equal; symmetry.
        + apply (in_cell_axis _ x _ (g_pos _ _ W 0%nat ltac:(lia))); [apply (Hg 0%nat ltac:(lia))|apply (H 0%nat ltac:(lia))].
        + apply (in_cell_axis _ y _ (g_pos _ _ W 1%nat ltac:(lia))); [apply (Hg 1%nat ltac:(lia))|apply (H 1%nat ltac:(lia))].
        + apply (in_cell_axis _ z _ (g_pos _ _ W 2%nat ltac:(lia))); [apply (Hg 2%nat ltac:(lia))|apply (H 2%nat ltac:(lia))].
      - intros -> i Hi. apply in_cell_axis; [by apply W|by apply Hg|]. destruct i as [|[|[|]]]; try lia; done. }
    unfold same_cell, ix. split.
    - intros (c & H1 & H2). apply Hin in H1, H2; [|done..]. by rewrite <- H1, <- H2.
    - intros E. apply cidx_inj in E; [|done..]. exists (ccell n (toGen q)). split; [by apply Hin|]. rewrite E. by apply Hin.
  Qed.

  Lemma clinv_add l h a p : clinv l h -> (a < cap)%nat -> h !! a = None -> primary (toGen p) ->
    room toGen n (M - 2) h (toGen p) ->
    exists l', cl_add M toGen l a p = Ok l' /\ clinv l' (<[a := p]> h).
  Proof.
    intros I Ha Hn Hp Hr. pose proof (ci_wf _ _ I) as W.
    unfold cl_add. rewrite (proj1 (g_index _ _ W toGen p Hp)). fold (ix p).
    destruct (ix_range l p W Hp) as [H0 Hlt].
    destruct (lookup_lt_is_Some_2 _ _ Hlt) as [c Hc].
    destruct (ci_cells _ _ I _ _ Hc) as (g & S & IC & HS & Hg).
    assert (a ∉ S) as HaS. { intros (q & E & _)%HS. congruence. }
    assert (size S < M - 1)%nat as Hsz.
    { enough (length (elements S) <= M - 2)%nat by (unfold size, set_size; simpl; lia).
      apply (Hr (elements S)); [apply NoDup_elements|]. intros x Hx. apply elem_of_elements, HS in Hx as (q & Eq & Eix).
      exists q. split; [done|]. apply (same_ix l); [done..|by apply (ci_prim _ _ I _ _ Eq)|]. rewrite Eix. lia. }
    destruct (inv_add M ltac:(lia) _ _ a IC HaS Hsz) as (t' & Hst & IC'). cbn [cell_step tcell tags] in Hst.
    destruct (cell_add M c a) as [[c' pp]| |] eqn:Eadd; cbn [obind] in Hst; try done. injection Hst as <-.
    unfold cl_cell_add. rewrite (proj2 (zget_Ok _ _ c) (conj H0 Hc)). cbn [obind].
    destruct (lookup_lt_is_Some_2 (clTags l) a ltac:(rewrite (ci_cap _ _ I); done)) as [tg Htg].
    unfold aget at 1. rewrite Htg. cbn [obind]. rewrite Eadd. cbn [obind].
    unfold zset. rewrite decide_True by done. unfold aset. rewrite decide_True by done. cbn [obind].
    rewrite decide_True by (rewrite (ci_cap _ _ I); done). cbn [obind]. eexists. split; [done|].
    split; cbn [cl_put clTags clCells].
    - apply gwf_put; [done|]. by rewrite insert_length.
    - rewrite insert_length. apply I.
    - intros b q. destruct (decide (b = a)) as [->|Hb].
      + rewrite lookup_insert. by intros [= <-].
      + rewrite lookup_insert_ne by done. apply I.
    - intros b j r. destruct (decide (b = a)) as [->|Hb]; [intros; rewrite lookup_insert; by eexists|].
      rewrite lookup_insert_ne by done. rewrite list_lookup_insert_ne by done. apply I.
    - intros j c2. destruct (decide (j = Z.to_nat (ix p))) as [->|Hj].
      + rewrite list_lookup_insert by done. intros [= <-]. exists (<[a:=pp]> g), ({[a]} ∪ S). split; [done|]. split.
        * intros b. rewrite elem_of_union, elem_of_singleton. destruct (decide (b = a)) as [->|Hb].
          -- rewrite lookup_insert. split; [|by left]. intros _. exists p. split; [done|]. lia.
          -- rewrite lookup_insert_ne by done. rewrite HS. split; [by intros [?|?]|by right].
        * intros b r. destruct (decide (b = a)) as [->|Hb].
          -- rewrite lookup_insert, list_lookup_insert by (by rewrite (ci_cap _ _ I)). naive_solver.
          -- rewrite lookup_insert_ne, list_lookup_insert_ne by done. apply Hg.
      + rewrite list_lookup_insert_ne by done. intros Hc2.
        destruct (ci_cells _ _ I _ _ Hc2) as (g2 & S2 & IC2 & HS2 & Hg2). exists g2, S2. split; [done|]. split.
        * intros b. destruct (decide (b = a)) as [->|Hb].
          -- rewrite HS2, lookup_insert. split; [intros (q & E & _); congruence|]. intros (q & [= <-] & E). lia.
          -- rewrite lookup_insert_ne by done. apply HS2.
        * intros b r. destruct (decide (b = a)) as [->|Hb].
          -- rewrite list_lookup_insert by (by rewrite (ci_cap _ _ I)). split; [|intros [=]; subst; done].
             intros E. apply Hg2 in E. apply (ci_tag _ _ I) in E as [? ?]. congruence.
          -- rewrite list_lookup_insert_ne by done. apply Hg2.
  Qed.

  Lemma clinv_tag l h a q : clinv l h -> h !! a = Some q ->
    exists c g S p, clCells l !! Z.to_nat (ix q) = Some c /\ inv M (Tagged c g) S /\ a ∈ S /\
      (forall a, a ∈ S <-> exists q', h !! a = Some q' /\ ix q' = ix q) /\ g !! a = Some p /\
      clTags l !! a = Some (Some (Z.to_nat (ix q), p)) /\
      (forall a p, g !! a = Some p <-> clTags l !! a = Some (Some (Z.to_nat (ix q), p))).
  Proof.
    intros I Hq. pose proof (ci_wf _ _ I) as W. destruct (ci_prim _ _ I _ _ Hq) as [Hp Ha].
    destruct (ix_range l q W Hp) as [H0 Hlt]. destruct (lookup_lt_is_Some_2 _ _ Hlt) as [c Hc].
    destruct (ci_cells _ _ I _ _ Hc) as (g & S & IC & HS & Hg). rewrite Z2Nat.id in HS by done.
    assert (a ∈ S) as HaS by (apply HS; eauto).
    destruct (proj1 (in_h _ _ _ _ IC) HaS) as [p Hsl]. apply (i_tag _ _ _ IC) in Hsl. cbn [tags] in Hsl.
    exists c, g, S, p. repeat (split; [done|]). split; [by apply Hg|done].
  Qed.

  Lemma clinv_del l h a : clinv l h -> is_Some (h !! a) ->
    exists l', cl_delete l a = Ok l' /\ clinv l' (delete a h).
  Proof.
    intros I [q Hq]. pose proof (ci_wf _ _ I) as W. destruct (ci_prim _ _ I _ _ Hq) as [Hp Ha].
    destruct (ix_range l q W Hp) as [H0 Hlt].
    destruct (clinv_tag _ _ _ _ I Hq) as (c & g & S & p & Hc & IC & HaS & HS & Hgp & Htp & Hg).
    destruct (inv_del M ltac:(lia) _ _ a IC HaS) as (t' & Hst & IC'). cbn [cell_step tcell tags] in Hst. rewrite Hgp in Hst.
    destruct (cell_delete c p) as [c'| |] eqn:Edel; cbn [obind] in Hst; try done. injection Hst as <-.
    unfold cl_delete, cl_cell_delete. unfold aget at 1. rewrite Htp. cbn [obind].
    unfold aget. rewrite Hc. cbn [obind]. rewrite Edel. cbn [obind].
    unfold aset. rewrite decide_True by done. cbn [obind].
    rewrite decide_True by (rewrite (ci_cap _ _ I); done). cbn [obind]. eexists. split; [done|].
    split; cbn [cl_put clTags clCells].
    - apply gwf_put; [done|]. by rewrite insert_length.
    - rewrite insert_length. apply I.
    - intros b q' Hb. apply lookup_delete_Some in Hb as [_ Hb]. by apply (ci_prim _ _ I) in Hb.
    - intros b j r. destruct (decide (b = a)) as [->|Hb].
      + rewrite list_lookup_insert by (by rewrite (ci_cap _ _ I)). done.
      + rewrite list_lookup_insert_ne by done. rewrite lookup_delete_ne by done. apply I.
    - intros j c2. destruct (decide (j = Z.to_nat (ix q))) as [->|Hj].
      + rewrite list_lookup_insert by done. intros [= <-]. exists (delete a g), (S ∖ {[a]}). split; [done|]. split.
        * intros b. rewrite elem_of_difference, elem_of_singleton, HS. rewrite Z2Nat.id by done.
          destruct (decide (b = a)) as [->|Hb].
          -- rewrite lookup_delete. split; [tauto|]. by intros (? & ? & _).
          -- rewrite lookup_delete_ne by done. tauto.
        * intros b r. destruct (decide (b = a)) as [->|Hb].
          -- rewrite lookup_delete, list_lookup_insert by (by rewrite (ci_cap _ _ I)). naive_solver.
          -- rewrite lookup_delete_ne, list_lookup_insert_ne by done. apply Hg.
      + rewrite list_lookup_insert_ne by done. intros Hc2.
        destruct (ci_cells _ _ I _ _ Hc2) as (g2 & S2 & IC2 & HS2 & Hg2). exists g2, S2. split; [done|]. split.
        * intros b. destruct (decide (b = a)) as [->|Hb].
          -- rewrite HS2, lookup_delete. split; [|by intros (? & ? & _)]. intros (q' & E & E2).
             rewrite Hq in E. injection E as <-. lia.
          -- rewrite lookup_delete_ne by done. apply HS2.
        * intros b r. destruct (decide (b = a)) as [->|Hb].
          -- rewrite list_lookup_insert by (by rewrite (ci_cap _ _ I)). rewrite Hg2, Htp.
             split; [|done]. intros [=]; subst. done.
          -- rewrite list_lookup_insert_ne by done. apply Hg2.
  Qed.

  Lemma clinv_same l h a p q : clinv l h -> h !! a = Some q -> primary (toGen p) -> ix p = ix q ->
    clinv l (<[a := p]> h).
  Proof.
    intros I Hq Hp E. split.
    - apply I.
    - apply I.
    - intros b r. destruct (decide (b = a)) as [->|Hb].
      + rewrite lookup_insert. intros [= <-]. split; [done|]. by apply (ci_prim _ _ I _ _ Hq).
      + rewrite lookup_insert_ne by done. apply I.
    - intros b j r Ht. destruct (decide (b = a)) as [->|Hb]; [rewrite lookup_insert; by eexists|].
      rewrite lookup_insert_ne by done. by apply (ci_tag _ _ I) in Ht.
    - intros j c Hc. destruct (ci_cells _ _ I _ _ Hc) as (g & S & IC & HS & Hg). exists g, S. split; [done|].
      split; [|done]. intros b. rewrite HS. destruct (decide (b = a)) as [->|Hb].
      + rewrite lookup_insert. split.
        * intros (q' & E' & Ej). rewrite Hq in E'. injection E' as <-. exists p. split; [done|congruence].
        * intros (q' & [= <-] & Ej). exists q. split; [done|congruence].
      + by rewrite lookup_insert_ne.
  Qed.

  Lemma clinv_update l h a p : clinv l h -> is_Some (h !! a) -> primary (toGen p) ->
    room toGen n (M - 2) (delete a h) (toGen p) ->
    exists l', cl_update M toGen l a p = Ok l' /\ clinv l' (<[a := p]> h).
  Proof.
    intros I [q Hq] Hp Hr. pose proof (ci_wf _ _ I) as W. destruct (ci_prim _ _ I _ _ Hq) as [Hpq Ha].
    destruct (ix_range l q W Hpq) as [H0 Hlt].
    destruct (clinv_tag _ _ _ _ I Hq) as (c & g & S & r & _ & _ & _ & _ & _ & Htp & _).
    unfold cl_update. unfold aget at 1. rewrite Htp. cbn [obind].
    rewrite (proj1 (g_index _ _ W toGen p Hp)). fold (ix p). rewrite Z2Nat.id by done.
    destruct (decide (ix q = ix p)) as [E|E].
    - exists l. split; [done|]. by apply (clinv_same l h a p q).
    - destruct (clinv_del l h a I ltac:(by eexists)) as (l1 & Hd & I1). unfold cl_delete in Hd. rewrite Hd. cbn [obind].
      destruct (clinv_add l1 (delete a h) a p I1 Ha (lookup_delete _ _) Hp Hr) as (l2 & Hadd & I2).
      exists l2. split.
      + unfold cl_add in Hadd. rewrite (proj1 (g_index _ _ (ci_wf _ _ I1) toGen p Hp)) in Hadd. done.
      + by rewrite insert_delete_insert in I2.
  Qed.

  Lemma clinv_run ops : forall l h, clinv l h -> cl_proper toGen n (M - 2) cap h ops ->
    exists l', run (cl_step M toGen) l ops = Ok l' /\ clinv l' (fold_left at_step ops h).
  Proof.
    induction ops as [|o ops IH]; intros l h I Hp; [by exists l|].
    cbn [run fold_left]. destruct Hp as [Ho Hp].
    assert (exists l', cl_step M toGen l o = Ok l' /\ clinv l' (at_step h o)) as (l' & -> & I').
    { destruct o as [a p|a|a p|]; cbn [cl_step at_step].
      - destruct Ho as (H1 & H2 & H3 & H4). by apply clinv_add.
      - by apply clinv_del.
      - destruct Ho as (H1 & H2 & H3). by apply clinv_update.
      - eexists. split; [done|]. apply clinv_clear; apply I. }
    cbn [obind]. by apply IH.
  Qed.

  Lemma gwf_setup lens cutoff l : 0 < cutoff -> positive3 lens -> length (clTags l) = cap ->
    n = vmap (fun x => axis_num x cutoff) lens ->
    exists l', cl_setup M lens cutoff l = Ok l' /\ clinv l' ∅ /\ grid_of lens cutoff n.
  Proof.
    intros Hc (Hx & Hy & Hz) Hcap En.
    assert (grid_of lens cutoff n) as HG.
    { subst n. intros [|[|[|]]] Hi; try lia; by apply axis_num_count. }
    assert (forall i, (i < 3)%nat -> (1 <= vget n i)%Z) as Hpos by (intros i Hi; apply HG, Hi).
    pose proof (Hpos 0%nat ltac:(lia)) as P0. pose proof (Hpos 1%nat ltac:(lia)) as P1. pose proof (Hpos 2%nat ltac:(lia)) as P2.
    cbn [vget] in P0, P1, P2. clear Hpos.
    unfold cl_setup. destruct (Rle_dec cutoff 0); [lra|]. rewrite <- En. cbv zeta.
    rewrite bool_decide_eq_true_2 by nia. cbn [check obind]. eexists. split; [done|]. split; [|done].
    apply clinv_clear; [|done]. split; cbn; try done.
    - intros [|[|[|]]] Hi; try lia; done.
    - ring.
    - destruct (decide _); [rewrite replicate_length; lia|lia].
  Qed.

  (** what the neighbour list holds *)
  Lemma atoms_of_perm l h j : clinv l h -> (0 <= j < clTot l)%Z ->
    exists S : gset nat, atoms_of (clCells l) j ≡ₚ elements S /\ (size S < M)%nat /\
      forall a, a ∈ S <-> exists q, h !! a = Some q /\ ix q = j.
  Proof.
    intros I Hj. pose proof (g_cap _ _ (ci_wf _ _ I)) as Hcap.
    destruct (lookup_lt_is_Some_2 (clCells l) (Z.to_nat j) ltac:(lia)) as [c Hc].
    destruct (ci_cells _ _ I _ _ Hc) as (g & S & IC & HS & Hg). exists S. split; [|split].
    - unfold atoms_of. rewrite Hc. by apply (inv_represents M ltac:(lia) _ _ IC).
    - rewrite (size_occ _ _ _ IC). cbn [tcell].
      pose proof (i_len _ _ _ IC) as Hl. pose proof (i_feNone _ _ _ IC) as Hn. cbn [tcell] in *.
      rewrite <- Hl. clear - Hn. revert Hn. generalize (McCellModel.fe c). generalize (slots c) as s.
      induction s as [|x s IH]; intros k Hk; [done|]. destruct k as [|k]; cbn in *.
      + injection Hk as ->. assert (length (occ s) <= length s)%nat; [|unfold occ in *; cbn in *; lia].
        clear. unfold occ. induction s as [|[y|] s IH]; cbn in *; lia.
      + specialize (IH _ Hk). unfold occ in *. destruct x; cbn in *; lia.
    - intros a. rewrite HS, Z2Nat.id by lia. done.
  Qed.
  Lemma atoms_of_spec l h j : clinv l h -> (0 <= j < clTot l)%Z ->
    NoDup (atoms_of (clCells l) j) /\ (length (atoms_of (clCells l) j) <= M)%nat /\
    forall a, a ∈ atoms_of (clCells l) j <-> exists q, h !! a = Some q /\ ix q = j.
  Proof.
    intros I Hj. destruct (atoms_of_perm l h j I Hj) as (S & HP & Hs & HS). split; [|split].
    - rewrite HP. apply NoDup_elements.
    - rewrite HP. unfold size, set_size in Hs. simpl in Hs. lia.
    - intros a. rewrite HP, elem_of_elements. apply HS.
  Qed.

  Lemma neighbors_spec l h p : clinv l h -> primary (toGen p) ->
    exists nb nIn, cell_neighbors M l (cl_index toGen l p) = Ok (nb, nIn) /\ get_neighbors M toGen l p = Ok nb /\ NoDup nb /\
      (forall a, a ∈ nb <-> exists q, h !! a = Some q /\ adjacent n (ccell n (toGen p)) (ccell n (toGen q))) /\
      (nIn <= length nb)%nat /\ (forall a, a ∈ take nIn nb <-> exists q, h !! a = Some q /\ ix q = ix p).
  Proof.
    intros I Hp. pose proof (ci_wf _ _ I) as W.
    destruct (g_index _ _ W toGen p Hp) as [Ei Hg]. set (c := ccell n (toGen p)) in *.
    assert (forall j, (0 <= j < clTot l)%Z -> (length (atoms_of (clCells l) j) <= M)%nat) as HL.
    { intros j Hj. by apply (atoms_of_spec l h j). }
    assert (0 <= cidx n c < clTot l)%Z as Hi by (rewrite (g_tot _ _ W); by apply cidx_range).
    assert (forall j, j ∈ nbr n c -> (0 <= j < clTot l)%Z) as Hjr by (intros j Hj; by eapply nbr_range).
    exists (atoms_of (clCells l) (cidx n c) ++ flat_map (atoms_of (clCells l)) (others (cidx n c) (nbr n c))),
      (length (atoms_of (clCells l) (cidx n c))).
    rewrite Ei. split; [by apply neighbors_eq|]. split.
    { unfold get_neighbors. rewrite Ei, neighbors_eq by done. done. }
    assert (forall a, a ∈ flat_map (atoms_of (clCells l)) (others (cidx n c) (nbr n c)) <->
              exists q, h !! a = Some q /\ ix q <> cidx n c /\ ix q ∈ nbr n c) as Hother.
    { intros a. rewrite elem_flat_map. unfold others. split.
      - intros (j & Hj & Haj). apply elem_of_list_filter in Hj as [Hne Hj].
        apply (atoms_of_spec l h j I) in Haj as (q & Hq & E); [|by apply Hjr]. exists q. by rewrite E.
      - intros (q & Hq & Hne & Hin). exists (ix q). split; [by apply elem_of_list_filter|].
        apply (atoms_of_spec l h _ I); [by apply Hjr|]. eauto. }
    split; [|split; [|split]].
    - apply NoDup_app. split; [by apply (atoms_of_spec l h)|]. split.
      + intros a Ha Hb. apply (atoms_of_spec l h _ I Hi) in Ha as (q & Hq & E).
        apply Hother in Hb as (q' & Hq' & Hne & _). rewrite Hq in Hq'. injection Hq' as <-. done.
      + apply nodup_flat_map.
        * apply NoDup_filter. by eapply nbr_nodup.
        * intros j Hj. apply elem_of_list_filter in Hj as [_ Hj]. apply (atoms_of_spec l h); [done|by apply Hjr].
        * intros j k a Hj Hk Haj Hak. apply elem_of_list_filter in Hj as [_ Hj]. apply elem_of_list_filter in Hk as [_ Hk].
          apply (atoms_of_spec l h j I) in Haj as (q & Hq & <-); [|by apply Hjr].
          apply (atoms_of_spec l h k I) in Hak as (q' & Hq' & <-); [|by apply Hjr]. congruence.
    - intros a. rewrite elem_of_app, Hother. rewrite (proj2 (proj2 (atoms_of_spec l h _ I Hi)) a).
      assert (forall q, h !! a = Some q -> ix q ∈ nbr n c <-> adjacent n c (ccell n (toGen q))) as HA.
      { intros q Hq. apply (nbr_adjacent _ _ W); [done|]. apply (g_index _ _ W toGen q). by apply (ci_prim _ _ I _ _ Hq). }
      split.
      + intros [(q & Hq & E)|(q & Hq & _ & Hin)]; exists q; (split; [done|]); apply (HA _ Hq); [|done].
        rewrite E. by apply (nbr_self _ _ W).
      + intros (q & Hq & Hadj). apply (HA _ Hq) in Hadj. destruct (decide (ix q = cidx n c)); [left|right]; eauto.
    - rewrite app_length. lia.
    - intros a. rewrite take_app. apply (atoms_of_spec l h _ I Hi).
  Qed.

  Lemma near_adjacent lens cutoff p q : 0 < cutoff -> positive3 lens -> grid_of lens cutoff n ->
    primary (toGen p) -> primary (toGen q) -> near lens cutoff (toGen p) (toGen q) ->
    adjacent n (ccell n (toGen p)) (ccell n (toGen q)).
  Proof.
    intros Hc (L0 & L1 & L2) HG Hp Hq [k Hk] i Hi.
    assert (0 < vget lens i) as HL by (destruct i as [|[|[|]]]; try lia; done).
    pose proof (near_axis _ _ _ _ _ _ Hc HL (HG i Hi) (Hp i Hi) (Hq i Hi) (Hk i Hi)) as H.
    destruct i as [|[|[|]]]; try lia; exact H.
  Qed.

  (** the number of atoms *)
  Lemma nAtom_spec l h : clinv l h -> cl_nAtom l = Ok (Z.of_nat (size h)).
  Proof.
    intros I. pose proof (ci_wf _ _ I) as W. pose proof (g_cap _ _ W) as Hcap.
    unfold cl_nAtom.
    assert (forall js s, (forall j, j ∈ js -> (0 <= j < clTot l)%Z) ->
      foldM (fun s i => let? c := zget (clCells l) i in Ok (s + ncell c)%Z) s js =
      Ok (s + Z.of_nat (length (flat_map (atoms_of (clCells l)) js)))%Z) as HF.
    { induction js as [|j js IH]; intros s Hj; cbn [foldM flat_map length]; [f_equal; lia|].
      pose proof (Hj j ltac:(left)) as Hjr.
      destruct (lookup_lt_is_Some_2 (clCells l) (Z.to_nat j) ltac:(lia)) as [c Hc].
      rewrite (proj2 (zget_Ok _ _ c) (conj (proj1 Hjr) Hc)). cbn [obind]. rewrite IH by (intros; apply Hj; by right).
      destruct (ci_cells _ _ I _ _ Hc) as (g & S & IC & _ & _). rewrite app_length.
      assert (ncell c = Z.of_nat (length (atoms_of (clCells l) j))) as ->.
      { unfold atoms_of. rewrite Hc. destruct (inv_represents M ltac:(lia) _ _ IC) as (HP & Hn & _). cbn [tcell] in *.
        rewrite Hn, HP. done. }
      f_equal. lia. }
    rewrite HF by (intros j Hj; apply elem_of_seqZ in Hj; lia). rewrite Z.add_0_l. do 2 f_equal.
    rewrite <- (size_dom h). unfold size, set_size. simpl. apply Permutation_length, NoDup_Permutation.
    - apply nodup_flat_map; [apply NoDup_seqZ| |].
      + intros j Hj. apply elem_of_seqZ in Hj. apply (atoms_of_spec l h); [done|lia].
      + intros j k a Hj Hk Haj Hak. apply elem_of_seqZ in Hj, Hk.
        apply (atoms_of_spec l h j I) in Haj as (q & Hq & <-); [|lia].
        apply (atoms_of_spec l h k I) in Hak as (q' & Hq' & <-); [|lia]. congruence.
    - apply NoDup_elements.
    - intros a. rewrite elem_of_elements, elem_of_dom, elem_flat_map. split.
      + intros (j & Hj & Ha). apply elem_of_seqZ in Hj. apply (atoms_of_spec l h j I) in Ha as (q & Hq & _); [by eexists|lia].
      + intros [q Hq]. exists (ix q).
        assert (0 <= ix q < clTot l)%Z as Hr.
        { rewrite (g_tot _ _ W). apply cidx_range. apply (g_index _ _ W toGen q). by apply (ci_prim _ _ I _ _ Hq). }
        split; [apply elem_of_seqZ; lia|]. apply (atoms_of_spec l h _ I Hr). eauto.
  Qed.
End Contents.
