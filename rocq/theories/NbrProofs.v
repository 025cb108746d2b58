(** The neighbour search of the parallel program: from the lemmas to the specification. *)
From Verif Require Import Base Vec3 BoxSpec OrthoModel OrthoSpec OrthoProofs MonoModel MonoSpec MonoProofs DomainModel DomainSpec DomainProofs SpeciesModel SpeciesProofs
  NbrModel NbrSpec NbrOffsets NbrCells NbrGet NbrSearch NbrPairs NbrIter.
From Coq Require Import Reals Lra.
Local Open Scope Z_scope.

Lemma acl_inv s : a_cell_list s -> dcl_inv s.
Proof.
  induction 1 as [cap|cap lower upper cutoffs n locals ghosts g s s' Hs IH HC Hcap E].
  - unfold dcl_inv, dcl_new, grid_size. simpl. lia.
  - pose proof (buildCellList_spec cap lower upper cutoffs n locals ghosts g s HC IH Hcap) as H. rewrite E in H. tauto.
Qed.

(** ** Order of cells *)
Lemma rank_lex d n t : in_cube n t -> 2 * n + 1 <= vy d -> 2 * n + 1 <= vz d -> 0 < grid_rank d t <-> lex_lt (V3 0 0 0) t.
Proof.
  intros (Hx & Hy & Hz) Dy Dz. unfold grid_rank, lex_lt. cbn [vx vy vz].
  assert (0 < vy t + vy d * vx t <-> (0 < vx t \/ (0 = vx t /\ 0 < vy t))) as H1.
  { split; [intros|intros [?|[? ?]]]; nia. }
  assert (vy t + vy d * vx t = 0 <-> (0 = vx t /\ 0 = vy t)) as H2.
  { split; [intros|intros [? ?]]; nia. }
  set (u := vy t + vy d * vx t) in *. split.
  - intros H. assert (0 < u \/ u = 0) as [Hu|Hu] by nia; [tauto|]. assert (0 < vz t) by nia. tauto.
  - intros H. assert (0 < u \/ (u = 0 /\ 0 < vz t)) as [Hu|[Hu ?]] by tauto; nia.
Qed.
Lemma lex_shift p t : lex_lt p (vadd3 p t) <-> lex_lt (V3 0 0 0) t.
Proof. unfold lex_lt, vadd3. cbn [vx vy vz]. lia. Qed.
Lemma Int_part_spec (x : R) : (IZR (Int_part x) <= x < IZR (Int_part x) + 1)%R.
Proof. pose proof (base_Int_part x) as [? ?]. lra. Qed.
Lemma Int_part_eq (x : R) k : (IZR k <= x < IZR k + 1)%R -> Int_part x = k.
Proof. intros H. pose proof (Int_part_spec x) as H'. assert (IZR (Int_part x) < IZR k + 1 /\ IZR k < IZR (Int_part x) + 1)%R as [A B] by lra.
  rewrite <- plus_IZR in A, B. apply lt_IZR in A, B. lia. Qed.
Lemma across_axis lo up c n m len : axis_ok lo up c n m len -> cells_across lo up c n = m.
Proof.
  intros [Hc Hle Hn Hm Elen Hpos Hcut Hm2]. unfold cells_across. apply Int_part_eq.
  assert (((up - lo) * IZR n / c) * c = (up - lo) * IZR n)%R as E by (field; lra). nra.
Qed.
Lemma along_axis lo up c n m len x : axis_ok lo up c n m len -> (lo - IZR n * len < x)%R ->
  Rtrunc ((x - (lo - IZR n * len)) / len) = cell_along lo up c n x + n.
Proof.
  intros A Hx. unfold cell_along. rewrite (across_axis _ _ _ _ _ _ A). rewrite <- (ax_len _ _ _ _ _ _ A). destruct A as [Hc Hle Hn Hm Elen Hpos Hcut Hm2].
  apply Rtrunc_unique. { apply Rlt_le, Rdiv_lt_0_compat; lra. }
  assert ((x - (lo - IZR n * len)) / len = (x - lo) / len + IZR n)%R as -> by (field; lra).
  pose proof (Int_part_spec ((x - lo) / len)). rewrite plus_IZR. lra.
Qed.
Lemma ccoords_cell lower upper cutoffs n s x : grid_state lower upper cutoffs n s -> in_outer s x ->
  ccoords s x = vadd3 (cell_at lower upper cutoffs n x) (V3 n n n).
Proof.
  intros [Hn Ax Ay Az El Eu _ _ _]. unfold in_outer, ccoords, cell_at, vadd3. rewrite El. cbn [vx vy vz]. intros (Hx & Hy & Hz).
  f_equal; (eapply along_axis; [done|lra]).
Qed.

(** ** Metrics *)
(** Atoms within the cutoff differ along each axis by less than the scaled cutoff, and in scaled distance by less than 1
    unless one cell is a cutoff. *)
Definition metric (n : Z) (cutoffs : vec3 R) (cutoff : R) (g r : nat -> vec3 R) : Prop := forall a b, within cutoff (r a) (r b) ->
  (Rabs (vx (g b) - vx (g a)) < vx cutoffs /\ Rabs (vy (g b) - vy (g a)) < vy cutoffs /\ Rabs (vz (g b) - vz (g a)) < vz cutoffs)%R /\
  ((cutdist cutoffs (g a) (g b) < 1)%R \/ n = 1).
Lemma dd_e_one q i : -1 <= i <= 1 -> dd_e q i = 0%R.
Proof. intros H. unfold dd_e. destruct (decide (i = 0)); [done|]. assert (Z.abs i - 1 = 0) as -> by lia. cbv zeta. lra. Qed.
Lemma inside_one q t : in_cube 1 t -> inside q t = true.
Proof. intros (Hx & Hy & Hz). unfold inside. rewrite !dd_e_one by done. destruct (Rle_dec _ 1); [done|]. exfalso. lra. Qed.

Lemma closeb_iff cutoff r masked a b : closeb cutoff r masked a b = true <-> interacts cutoff r masked a b.
Proof.
  unfold closeb, interacts, within. rewrite andb_true_iff, negb_true_iff. destruct (Rlt_dec _ _); intuition (try done).
Qed.
Section counted.
  Context (lower upper cutoffs : vec3 R) (n : Z) (g : nat -> vec3 R) (locals ghosts : list nat) (s : dclist).
  Hypothesis B : built_state lower upper cutoffs n g (locals ++ ghosts) s.
  Hypothesis Hnd : NoDup (locals ++ ghosts).
  Hypothesis Hloc : forall a, a ∈ locals -> owned lower upper (g a).
  Hypothesis Hgho : forall a, a ∈ ghosts -> ~ owned lower upper (g a).
  Context (rev : bool) (cutoff : R) (r : nat -> vec3 R) (masked : nat -> nat -> bool).
  Hypothesis Hmode : rev = true \/ 4 * n <= vz (wGrid s).
  Hypothesis Hmet : metric n cutoffs cutoff g r.
  Hypothesis Hsym : sym_mask masked (locals ++ ghosts).
  Let G := bs_grid _ _ _ _ _ _ _ B.
  Notation d := (wGrid s).
  Notation cellof a := (grid_rank d (ccoords s (g a))).
  Notation All := (allpairs cutoffs n s rev cutoff r masked).

  Lemma grid_sides : 1 <= n /\ 2 * n + 1 <= vx d /\ 2 * n + 1 <= vy d /\ 2 * n + 1 <= vz d.
  Proof. pose proof (gs_n _ _ _ _ _ G). pose proof (gs_dims _ _ _ _ _ G). lia. Qed.
  Lemma local_tag a : a ∈ locals -> in_outer s (g a) /\ (a, cellof a) ∈ wTags s /\ cellof a ∈ wList s.
  Proof.
    intros Ha. pose proof (Hloc a Ha) as Hr. assert (in_outer s (g a)) as Ho by (eapply region_outer; done). split; [done|].
    destruct (coords_in _ _ _ _ _ G _ Ho) as [Hg Hl]. split.
    - rewrite (bs_tags _ _ _ _ _ _ _ B), elem_of_tagged, dd_index_in by done. split; [apply elem_of_app; by left|]. split; [done|].
      apply rank_range; [by eapply gs_grid_ok|done].
    - rewrite (list_locals _ _ _ _ _ _ _ B), elem_of_dd_locals. exists (ccoords s (g a)). split; [by apply Hl|done].
  Qed.
  Lemma tag_cell a c : (a, c) ∈ wTags s -> a ∈ locals ++ ghosts /\ in_outer s (g a) /\ c = cellof a.
  Proof.
    rewrite (bs_tags _ _ _ _ _ _ _ B), elem_of_tagged. intros (Ha & -> & Hp). split; [done|].
    destruct (in_outer_dec s (g a)) as [Ho|Ho]; [|rewrite dd_index_out in Hp by done; lia]. by rewrite dd_index_in.
  Qed.
  Lemma tag_local a c : (a, c) ∈ wTags s -> c ∈ wList s -> a ∈ locals.
  Proof.
    intros (Ha & Ho & ->)%tag_cell Hc. apply elem_of_app in Ha as [?|Ha]; [done|]. exfalso. apply (Hgho a Ha).
    rewrite (list_locals _ _ _ _ _ _ _ B), elem_of_dd_locals in Hc. destruct Hc as (p & Hp & E).
    destruct (coords_in _ _ _ _ _ G _ Ho) as [Hg Hl]. apply Hl.
    assert (ccoords s (g a) = p) as ->; [|done].
    pose proof grid_sides. rewrite <- (position_rank d (ccoords s (g a))), <- (position_rank d p), E; [done| | | |]; try (by eapply gs_grid_ok); [|done].
    eapply local_in_grid; [|done]. lia.
  Qed.
  Lemma tag_gf a : in_outer s (g a) -> gflag d n (cellof a) = false <-> owned lower upper (g a).
  Proof.
    intros Ho. unfold gflag. destruct (coords_in _ _ _ _ _ G _ Ho) as [Hg Hl]. rewrite position_rank by (by try eapply gs_grid_ok).
    rewrite negb_false_iff, bool_decide_eq_true. symmetry. exact Hl.
  Qed.
  Lemma near_tag a b : a ∈ locals -> b ∈ locals ++ ghosts -> within cutoff (r a) (r b) ->
    in_outer s (g b) /\ (b, cellof b) ∈ wTags s /\ exists t, in_cube n t /\ inside (qvec s cutoffs) t = true /\ ccoords s (g b) = vadd3 (ccoords s (g a)) t.
  Proof.
    intros Ha Hb Hw. destruct (local_tag a Ha) as (Hoa & _ & _). destruct (Hmet a b Hw) as [(Dx & Dy & Dz) Hd].
    assert (in_outer s (g b)) as Hob.
    { pose proof (Hloc a Ha) as Hx. destruct G as [Hn Ax Ay Az El Eu _ _ _]. unfold in_outer, owned in *. rewrite El, Eu. cbn [vx vy vz].
      destruct Ax, Ay, Az. destruct Hx as (?&?&?). apply Rabs_def2 in Dx, Dy, Dz. repeat split; lra. }
    split; [done|]. split.
    - rewrite (bs_tags _ _ _ _ _ _ _ B), elem_of_tagged, dd_index_in by done. split; [done|]. split; [done|].
      apply rank_range; [by eapply gs_grid_ok|]. apply (coords_in _ _ _ _ _ G _ Hob).
    - destruct Hd as [Hd|E1]; [by eapply near_offset|].
      exists (V3 (vx (ccoords s (g b)) - vx (ccoords s (g a))) (vy (ccoords s (g b)) - vy (ccoords s (g a))) (vz (ccoords s (g b)) - vz (ccoords s (g a)))).
      assert (in_cube n (V3 (vx (ccoords s (g b)) - vx (ccoords s (g a))) (vy (ccoords s (g b)) - vy (ccoords s (g a))) (vz (ccoords s (g b)) - vz (ccoords s (g a))))) as HC.
      { destruct G as [Hn Ax Ay Az El Eu _ _ _]. unfold in_outer in *. rewrite El, Eu in Hoa, Hob. cbn [vx vy vz] in *.
        destruct (cell_diff _ _ _ _ _ _ (vx (g a)) (vx (g b)) Ax ltac:(lra) ltac:(lra)) as [_ Bx].
        destruct (cell_diff _ _ _ _ _ _ (vy (g a)) (vy (g b)) Ay ltac:(lra) ltac:(lra)) as [_ By].
        destruct (cell_diff _ _ _ _ _ _ (vz (g a)) (vz (g b)) Az ltac:(lra) ltac:(lra)) as [_ Bz].
        cbv zeta in *. unfold in_cube, ccoords. rewrite El. cbn [vx vy vz]. auto. }
      split; [done|]. split; [apply inside_one; by rewrite <- E1|]. unfold vadd3. cbn [vx vy vz]. destruct (ccoords s (g b)) as [u v w]; cbn [vx vy vz]. f_equal; lia.
  Qed.

  Lemma near_sym a b : a ∈ locals ++ ghosts -> b ∈ locals ++ ghosts -> interacts cutoff r masked a b -> interacts cutoff r masked b a.
  Proof.
    intros Ha Hb [Hw Hm]. split; [|by rewrite Hsym]. unfold within in *.
    assert (normSq (vsub (r a) (r b)) = normSq (vsub (r b) (r a))) as -> by (unfold normSq, vdot, vsub; cbn [vx vy vz]; ring). exact Hw.
  Qed.
  Lemma same_cell_order a b c : a ∈ inC (wTags s) c -> b ∈ inC (wTags s) c -> a <> b ->
    (exists i j : nat, (i < j)%nat /\ inC (wTags s) c !! i = Some a /\ inC (wTags s) c !! j = Some b) \/
    (exists i j : nat, (i < j)%nat /\ inC (wTags s) c !! i = Some b /\ inC (wTags s) c !! j = Some a).
  Proof.
    intros (i & Hi)%elem_of_list_lookup (j & Hj)%elem_of_list_lookup Hne. destruct (Nat.lt_trichotomy i j) as [H|[->|H]]; [left; eauto 6|congruence|right; eauto 6].
  Qed.
  Lemma same_cell_one a b c : (exists i j : nat, (i < j)%nat /\ inC (wTags s) c !! i = Some a /\ inC (wTags s) c !! j = Some b) ->
    (exists i j : nat, (i < j)%nat /\ inC (wTags s) c !! i = Some b /\ inC (wTags s) c !! j = Some a) -> False.
  Proof.
    intros (i & j & H & Hi & Hj) (i' & j' & H' & Hi' & Hj').
    assert (NoDup (inC (wTags s) c)) as HN by (apply NoDup_inC, (T_NoDup _ _ _ _ _ _ _ B Hnd)).
    pose proof (NoDup_lookup _ _ _ _ HN Hi Hj'). pose proof (NoDup_lookup _ _ _ _ HN Hj Hi'). lia.
  Qed.
  Lemma offset_cell t a b : in_cube n t -> inside (qvec s cutoffs) t = true -> ccoords s (g b) = vadd3 (ccoords s (g a)) t ->
    cellof b = cellof a + grid_rank d t /\ (cellof b = cellof a \/ exists o, o ∈ reach d (qvec s cutoffs) n /\ cellof b = cellof a + o).
  Proof.
    intros Ht Hi E. rewrite E, rank_add. split; [done|]. destruct (vec3Z_eq_dec t (V3 0 0 0)) as [->|Hne].
    - left. unfold grid_rank. cbn [vx vy vz]. lia.
    - right. exists (grid_rank d t). split; [|done]. apply elem_of_reach. eauto.
  Qed.

  Lemma all_counted : counted_once rev locals ghosts (interacts cutoff r masked) (fun a b => lex_lt (cell_at lower upper cutoffs n (g a)) (cell_at lower upper cutoffs n (g b))) All.
  Proof.
    pose proof grid_sides as (Hn1 & Sx & Sy & Sz). constructor.
    - by apply (NoDup_allpairs lower upper cutoffs n g (locals ++ ghosts) s B Hnd).
    - intros a b H. rewrite (elem_of_allpairs lower upper cutoffs n g (locals ++ ghosts) s B Hnd) in H.
      destruct H as (Hcl & c & c' & Hc & Ha & Hb & _ & _ & Hsame). split; [by eapply tag_local|]. pose proof (tag_cell _ _ Hb) as (Hb' & Hob & Eb). split; [done|].
      split; [|by apply closeb_iff]. intros <-. pose proof (tag_cell _ _ Ha) as (_ & _ & Ea).
      destruct (Hsame ltac:(congruence)) as (i & j & Hij & Hi & Hj).
      assert (NoDup (inC (wTags s) c)) as HN by (apply NoDup_inC, (T_NoDup _ _ _ _ _ _ _ B Hnd)). pose proof (NoDup_lookup _ _ _ _ HN Hi Hj). lia.
    - intros a b Ha Hb Hne Hcl. assert (a ∈ locals ++ ghosts) as Ha' by (apply elem_of_app; by left). assert (b ∈ locals ++ ghosts) as Hb' by (apply elem_of_app; by left).
      pose proof (near_sym a b Ha' Hb' Hcl) as Hcl'.
      destruct (local_tag a Ha) as (Hoa & Ta & La). destruct (local_tag b Hb) as (Hob & Tb & Lb).
      destruct (near_tag a b Ha Hb' (proj1 Hcl)) as (_ & _ & t & Ht & Hi & Et). destruct (offset_cell t a b Ht Hi Et) as [_ Ho].
      destruct (near_tag b a Hb Ha' (proj1 Hcl')) as (_ & _ & t' & Ht' & Hi' & Et'). destruct (offset_cell t' b a Ht' Hi' Et') as [_ Ho'].
      assert (gflag d n (cellof a) = false) as Ga by (apply tag_gf; [done|by apply Hloc]).
      assert (gflag d n (cellof b) = false) as Gb by (apply tag_gf; [done|by apply Hloc]).
      assert (forall x y, x ∈ locals -> y ∈ locals -> (x, y) ∈ All -> interacts cutoff r masked x y /\ cellof x <= cellof y /\
        (cellof y = cellof x -> exists i j : nat, (i < j)%nat /\ inC (wTags s) (cellof x) !! i = Some x /\ inC (wTags s) (cellof x) !! j = Some y)) as HE.
      { intros x y Hx Hy H. rewrite (elem_of_allpairs lower upper cutoffs n g (locals ++ ghosts) s B Hnd) in H.
        destruct H as (Hc0 & c & c' & Hc & Hx' & Hy' & _ & Hk & Hsame). pose proof (tag_cell _ _ Hx') as (_ & _ & ->). pose proof (tag_cell _ _ Hy') as (_ & Hoy & ->).
        split; [by apply closeb_iff|]. split; [|done]. destruct Hk as [?|[_ Hg]]; [done|].
        assert (gflag d n (cellof y) = false) as Gy by (apply tag_gf; [done|by apply Hloc]). congruence. }
      assert (forall x y, (x, cellof x) ∈ wTags s -> (y, cellof y) ∈ wTags s -> cellof x ∈ wList s -> interacts cutoff r masked x y ->
        (cellof y = cellof x \/ exists o, o ∈ reach d (qvec s cutoffs) n /\ cellof y = cellof x + o) -> cellof x <= cellof y ->
        (cellof y = cellof x -> exists i j : nat, (i < j)%nat /\ inC (wTags s) (cellof x) !! i = Some x /\ inC (wTags s) (cellof x) !! j = Some y) -> (x, y) ∈ All) as HI.
      { intros x y Tx Ty Lx Hc0 Hoo Hle Hsame. rewrite (elem_of_allpairs lower upper cutoffs n g (locals ++ ghosts) s B Hnd).
        split; [by apply closeb_iff|]. exists (cellof x), (cellof y). do 3 (split; [done|]). split; [done|]. split; [by left|done]. }
      destruct (Z.lt_trichotomy (cellof a) (cellof b)) as [Hlt|[Heq|Hgt]].
      + left. split; [apply HI; try done; [lia|intros; lia]|]. intros H. apply HE in H as (_ & ? & _); [lia|done|done].
      + rewrite Heq in Ta. destruct (same_cell_order a b (cellof b)) as [Hab|Hba]; [by apply elem_of_inC|by apply elem_of_inC|done| |].
        * left. split; [apply HI; try done; [by rewrite Heq|lia|by rewrite Heq]|]. intros H. apply HE in H as (_ & _ & H); [|done|done].
          apply (same_cell_one a b (cellof b)); [done|]. by apply H.
        * right. split; [apply HI; try done; [by rewrite Heq|lia]|]. intros H. apply HE in H as (_ & _ & H); [|done|done].
          apply (same_cell_one a b (cellof b)); [|done]. rewrite Heq in H. by apply H.
      + right. split; [apply HI; try done; [lia|intros; lia]|]. intros H. apply HE in H as (_ & ? & _); [lia|done|done].
    - intros a b Ha Hb Hcl. assert (b ∈ locals ++ ghosts) as Hb' by (apply elem_of_app; by right).
      destruct (local_tag a Ha) as (Hoa & Ta & La).
      destruct (near_tag a b Ha Hb' (proj1 Hcl)) as (Hob & Tb & t & Ht & Hi & Et). destruct (offset_cell t a b Ht Hi Et) as [Ec Ho].
      assert (gflag d n (cellof a) = false) as Ga by (apply tag_gf; [done|by apply Hloc]).
      assert (gflag d n (cellof b) = true) as Gb.
      { apply not_false_iff_true. rewrite tag_gf by done. by apply Hgho. }
      assert (cellof b <> cellof a) as Hne by congruence.
      assert (cellof a < cellof b <-> lex_lt (cell_at lower upper cutoffs n (g a)) (cell_at lower upper cutoffs n (g b))) as Hlex.
      { rewrite (ccoords_cell lower upper cutoffs n s (g a) G Hoa), (ccoords_cell lower upper cutoffs n s (g b) G Hob) in Et.
        assert (cell_at lower upper cutoffs n (g b) = vadd3 (cell_at lower upper cutoffs n (g a)) t) as ->.
        { clear -Et. revert Et. generalize (cell_at lower upper cutoffs n (g a)) (cell_at lower upper cutoffs n (g b)). intros [x y z] [u v w]. unfold vadd3. cbn [vx vy vz]. intros [=]. f_equal; lia. }
        rewrite lex_shift, <- (rank_lex d n t) by done. rewrite Ec. lia. }
      rewrite <- Hlex. rewrite (elem_of_allpairs lower upper cutoffs n g (locals ++ ghosts) s B Hnd). split.
      + intros (_ & c & c' & Hc & Ha' & Hb'' & _ & Hk & _). pose proof (tag_cell _ _ Ha') as (_ & _ & ->). pose proof (tag_cell _ _ Hb'') as (_ & _ & ->).
        destruct Hk as [?|[? _]]; [right; lia|by left].
      + intros Hk. split; [by apply closeb_iff|]. exists (cellof a), (cellof b). do 4 (split; [done|]). split; [|done].
        destruct Hk as [->|?]; [by right|left; lia].
  Qed.
End counted.

(** ** Boxes *)
Local Open Scope R_scope.
Lemma axis_within u w c q : 0 < c -> 0 < w -> u * w * (u * w) <= q -> q < c * c -> Rabs u < c / w.
Proof.
  intros Hc Hw Hq Hlt. assert (Rabs (u * w) < c) as H.
  { destruct (Rcase_abs (u * w)); [rewrite Rabs_left by done|rewrite Rabs_right by done]; nra. }
  rewrite Rabs_mult, (Rabs_right w) in H by lra. apply (Rmult_lt_reg_r w); [done|].
  assert (c / w * w = c) as -> by (field; lra). done.
Qed.
Lemma metric_ortho b cutoff n g : a_box b -> 0 < cutoff -> metric n (scaled cutoff (oLen b)) cutoff g (fun a => genToCart b (g a)).
Proof.
  intros Hb Hc x y Hw. destruct (owf_a_box b Hb) as (l & lat & W). destruct (w_pos _ _ _ W) as (Px & Py & Pz).
  unfold within, normSq, vdot, vsub, genToCart in Hw. rewrite (w_len _ _ _ W) in *. cbn [vx vy vz] in Hw.
  set (u := vx (g y) - vx (g x)). set (v := vy (g y) - vy (g x)). set (w := vz (g y) - vz (g x)).
  assert (u * vx l * (u * vx l) + v * vy l * (v * vy l) + w * vz l * (w * vz l) < cutoff * cutoff) as H by (unfold u, v, w; lra).
  pose proof (Rle_0_sqr (u * vx l)) as Qx. pose proof (Rle_0_sqr (v * vy l)) as Qy. pose proof (Rle_0_sqr (w * vz l)) as Qz. unfold Rsqr in *.
  split.
  - unfold scaled; cbn [vx vy vz]. repeat split; (eapply axis_within; [done|done| |exact H]); lra.
  - left. unfold cutdist, scaled; cbn [vx vy vz]. fold u v w.
    assert (u / (cutoff / vx l) * (u / (cutoff / vx l)) + v / (cutoff / vy l) * (v / (cutoff / vy l)) + w / (cutoff / vz l) * (w / (cutoff / vz l)) =
            (u * vx l * (u * vx l) + v * vy l * (v * vy l) + w * vz l * (w * vz l)) / (cutoff * cutoff)) as -> by (field; lra).
    apply (Rmult_lt_reg_r (cutoff * cutoff)); [nra|].
    assert (forall q : R, q / (cutoff * cutoff) * (cutoff * cutoff) = q) as E by (intros; field; lra). rewrite E. lra.
Qed.
Lemma metric_mono b cutoff g : a_mbox b -> 0 < cutoff -> metric 1 (scaled cutoff (mLengths b)) cutoff g (fun a => mono_genToCart b (g a)).
Proof.
  intros Hb Hc x y Hw. destruct (mwf_a_mbox b Hb) as (l & d & W). destruct (m_pos _ _ _ W) as (Px & Py & Pz).
  unfold within, normSq, vdot, vsub, mono_genToCart in Hw. rewrite (m_l _ _ _ W), (m_d _ _ _ W) in *. rewrite (m_lens _ _ _ W). cbn [vx vy vz] in Hw.
  set (u := vx (g y) - vx (g x)). set (v := vy (g y) - vy (g x)). set (w := vz (g y) - vz (g x)).
  assert (u * vx l * (u * vx l) + v * vy l * (v * vy l) + (w * vz l + v * d) * (w * vz l + v * d) < cutoff * cutoff) as H by (unfold u, v, w; lra).
  pose proof (Rle_0_sqr (u * vx l)) as Qx. pose proof (Rle_0_sqr (v * vy l)) as Qy. pose proof (Rle_0_sqr (w * vz l + v * d)) as Qz. unfold Rsqr in *.
  split; [|by right]. unfold scaled; cbn [vx vy vz].
  split; [eapply axis_within; [done|done| |exact H]; lra|]. split; [eapply axis_within; [done|done| |exact H]; lra|].
  set (c3 := - d / vy l). assert (0 < 1 + c3 * c3) as Hp by nra. assert (0 < sqrt (1 + c3 * c3)) as Hs by (by apply sqrt_lt_R0).
  eapply axis_within; [done|by apply Rdiv_lt_0_compat| |exact H].
  assert (w * (vz l / sqrt (1 + c3 * c3)) * (w * (vz l / sqrt (1 + c3 * c3))) = w * vz l * (w * vz l) / (1 + c3 * c3)) as ->.
  { rewrite <- (sqrt_sqrt (1 + c3 * c3)) at 3 by lra. field. lra. }
  assert (w * vz l = (w * vz l + v * d) + c3 * (v * vy l)) as E by (unfold c3; field; lra).
  rewrite E at 1 2. set (z := w * vz l + v * d) in *. set (y0 := v * vy l) in *.
  assert ((z + c3 * y0) * (z + c3 * y0) / (1 + c3 * c3) <= y0 * y0 + z * z); [|lra].
  apply (Rmult_le_reg_r (1 + c3 * c3)); [done|].
  assert ((z + c3 * y0) * (z + c3 * y0) / (1 + c3 * c3) * (1 + c3 * c3) = (z + c3 * y0) * (z + c3 * y0)) as -> by (field; lra).
  pose proof (Rle_0_sqr (y0 - c3 * z)) as Q. unfold Rsqr in Q. lra.
Qed.
Lemma scaled_pos c l : 0 < c -> positive3 l -> 0 < vx (scaled c l) /\ 0 < vy (scaled c l) /\ 0 < vz (scaled c l).
Proof. intros Hc (?&?&?). unfold scaled; cbn [vx vy vz]. repeat split; by apply Rdiv_lt_0_compat. Qed.
Lemma ortho_len_pos b : a_box b -> positive3 (oLen b).
Proof. intros Hb. destruct (owf_a_box b Hb) as (l & lat & W). rewrite (w_len _ _ _ W). apply (w_pos _ _ _ W). Qed.
Lemma mono_len_pos b : a_mbox b -> positive3 (mLengths b).
Proof.
  intros Hb. destruct (mwf_a_mbox b Hb) as (l & d & W). destruct (m_pos _ _ _ W) as (?&?&?). rewrite (m_lens _ _ _ W). unfold positive3; cbn [vx vy vz].
  repeat split; try done. apply Rdiv_lt_0_compat; [done|]. apply sqrt_lt_R0. pose proof (Rle_0_sqr (- d / vy l)). unfold Rsqr in *. lra.
Qed.
Lemma mode_wide lower upper cutoffs n s : grid_state lower upper cutoffs n s -> 2 * vz cutoffs <= vz upper - vz lower -> (4 * n <= vz (wGrid s))%Z.
Proof.
  intros G H. destruct (gs_z _ _ _ _ _ G) as [Hc Hle Hn Hm Elen Hpos Hcut Hm2]. set (m := (vz (wGrid s) - 2 * n)%Z) in *.
  assert (1 <= IZR n) by (by apply IZR_le). assert (2 * IZR n < IZR m + 1) as H1 by nra.
  rewrite <- (mult_IZR 2), <- plus_IZR in H1. apply lt_IZR in H1. lia.
Qed.

(** ** The pair list *)
Local Open Scope Z_scope.
Section pairs.
  Context (lower upper cutoffs : vec3 R) (n : Z) (g : nat -> vec3 R) (l : list nat) (s : dclist).
  Hypothesis B : built_state lower upper cutoffs n g l s.
  Hypothesis Hl : NoDup l.
  Context (rev : bool) (cutoff : R) (r : nat -> vec3 R) (masked : nat -> nat -> bool).
  Hypothesis Hmode : rev = true \/ 4 * n <= vz (wGrid s).
  Notation All := (allpairs cutoffs n s rev cutoff r masked).

  Lemma buildPairList_spec capA p : 
    (buildPairList capA s rev cutoff r masked p = Throw /\
      ((capA = 0)%nat \/ (exists c, c ∈ wList s /\ (MaxNeighborAtom < length (nbof cutoffs n s rev c))%nat) \/ (vCap2 p = 0%nat /\ All = []))) \/
    (exists p', buildPairList capA s rev cutoff r masked p = Ok p' /\ visits p' All /\ (0 < vCap2 p')%nat /\ (0 < capA)%nat /\ (vCap2 p = 0%nat -> All <> [])).
  Proof.
    unfold buildPairList. destruct (decide (0 < capA)%nat) as [Hcap|Hcap].
    2:{ left. rewrite bool_decide_false by done. split; [done|]. left. lia. }
    rewrite bool_decide_true by done. cbn [check obind]. rewrite (bs_built _ _ _ _ _ _ _ B). cbn [check obind].
    pose proof (primary_spec lower upper cutoffs n g l s B rev cutoff r masked Hmode) as HP.
    destruct (decide (Forall _ (wList s))) as [HF|HF].
    2:{ left. split.
        - cbn [vCap1 vCap2 vA1 vA2 vFirst]. destruct (decide (vCap2 p = 0)%nat).
          + unfold countPairs. rewrite (bs_built _ _ _ _ _ _ _ B). cbn [check obind]. by rewrite HP.
          + cbn [obind]. unfold dpl_build. rewrite (bs_built _ _ _ _ _ _ _ B). cbn [check obind vCap1 vCap2]. rewrite !bool_decide_true by lia.
            cbn [check obind]. by rewrite HP.
        - right. left. apply not_Forall_Exists in HF; [|apply _]. apply Exists_exists in HF as (c & Hc & H). exists c. split; [done|].
          destruct (decide (length (nbof cutoffs n s rev c) <= MaxNeighborAtom)%nat) as [|Hgt]; [|lia]. exfalso. apply H. by right. }
    cbn [vCap1 vCap2 vA1 vA2 vFirst]. set (L := flat_map (prim cutoffs n s rev cutoff r masked) (wList s)) in *.
    assert (sum_list (map (fun x : nat * list nat => length x.2) L) = length All) as EL.
    { unfold allpairs. fold L. rewrite pairs_length. clear. generalize L. intros L'. induction L' as [|x L' IH]; [done|]. rewrite seconds_cons, app_length. cbn [map]. simpl. by rewrite IH. }
    assert (forall q, (0 < vCap1 q)%nat -> (0 < vCap2 q)%nat -> exists p', dpl_build s rev cutoff r masked q = Ok p' /\ visits p' All /\ (0 < vCap2 p')%nat) as HB.
    { intros q H1 H2. destruct (dpl_build_spec s rev cutoff r masked q L (bs_built _ _ _ _ _ _ _ B) H1 H2 HP) as (p' & E & E1 & E2 & E3 & _ & Hc2).
      exists p'. split; [done|]. split; [|lia]. split; [done|]. intros it fuel Hend Hf. unfold allpairs in *. fold L in Hf |- *. rewrite <- pairs_nonempty in Hf |- *.
      by eapply loop_all; [apply nonempty_Forall|..]. }
    destruct (decide (vCap2 p = 0)%nat) as [E0|E0].
    - unfold countPairs. rewrite (bs_built _ _ _ _ _ _ _ B). cbn [check obind]. rewrite HP. cbn [obind]. rewrite EL.
      destruct (decide (All = [])) as [EA|EA].
      + left. split; [|by right; right]. rewrite EA. unfold dpl_build. rewrite (bs_built _ _ _ _ _ _ _ B). cbn [check obind vCap1 vCap2 length]. rewrite bool_decide_true by lia. done.
      + right. assert (0 < length All)%nat as HA by (destruct All; [done|simpl; lia]).
        assert (1 <= 3 * length All / 2)%nat by (apply Nat.div_le_lower_bound; lia).
        destruct (HB (DPL (vA1 p) (vA2 p) (vFirst p) (capA `max` vCap1 p) (3 * length All / 2))) as (p' & E & Hv & Hc2); cbn [vCap1 vCap2]; [lia|lia|]. eauto 8.
    - cbn [obind]. right. destruct (HB (DPL (vA1 p) (vA2 p) (vFirst p) (capA `max` vCap1 p) (vCap2 p))) as (p' & E & Hv & Hc2); cbn [vCap1 vCap2]; [lia|lia|].
      exists p'. repeat split; try done. apply Hv.
  Qed.
  (** With few atoms the array of neighbours does not overflow. *)
  Lemma nbof_length c : c ∈ wList s -> (length (nbof cutoffs n s rev c) <= length l)%nat.
  Proof.
    intros Hc. pose proof (NoDup_nbof lower upper cutoffs n g l s B Hl rev c Hc) as HN.
    apply submseteq_length, NoDup_submseteq; [done|]. intros a Ha. unfold nbof in Ha. apply elem_of_flat_map in Ha as (c' & _ & Ha%elem_of_inC).
    rewrite (bs_tags _ _ _ _ _ _ _ B) in Ha. apply elem_of_tagged in Ha. tauto.
  Qed.
End pairs.

Section generic.
  Local Open Scope R_scope.
  Context (cap capA : nat) (lower upper cutoffs : vec3 R) (n : Z) (locals ghosts : list nat) (g r : nat -> vec3 R) (s s' : dclist) (rev : bool) (cutoff : R)
    (masked : nat -> nat -> bool) (p : dplist).
  Hypothesis Hpos : 0 < vx cutoffs /\ 0 < vy cutoffs /\ 0 < vz cutoffs.
  Hypothesis Hs : a_cell_list s.
  Hypothesis Hh : holding cap lower upper locals ghosts g.
  Hypothesis Hmet : metric n cutoffs cutoff g r.
  Hypothesis Hsym : sym_mask masked (locals ++ ghosts).
  Hypothesis Hmode : rev = true \/ 2 * vz cutoffs <= vz upper - vz lower.
  Hypothesis HE : buildCellList cap lower upper cutoffs n locals ghosts g s = Ok s'.
  Lemma generic_built : built_state lower upper cutoffs n g (locals ++ ghosts) s' /\ (rev = true \/ (4 * n <= vz (wGrid s'))%Z).
  Proof.
    pose proof (buildCellList_spec cap lower upper cutoffs n locals ghosts g s Hpos (acl_inv s Hs) (ho_cap _ _ _ _ _ _ Hh)) as HB. rewrite HE in HB. destruct HB as [B _].
    split; [done|]. destruct Hmode as [?|H]; [by left|right]. by eapply mode_wide; [apply B|].
  Qed.
  Lemma generic_counted : counted_once rev locals ghosts (interacts cutoff r masked)
    (fun a b => lex_lt (cell_at lower upper cutoffs n (g a)) (cell_at lower upper cutoffs n (g b))) (allpairs cutoffs n s' rev cutoff r masked).
  Proof. destruct generic_built as [B M]. destruct Hh as [H1 H2 H3 H4]. by apply all_counted. Qed.
  Lemma generic_once p' : buildPairList capA s' rev cutoff r masked p = Ok p' ->
    exists l, visits p' l /\ counted_once rev locals ghosts (interacts cutoff r masked)
      (fun a b => lex_lt (cell_at lower upper cutoffs n (g a)) (cell_at lower upper cutoffs n (g b))) l.
  Proof.
    intros E. destruct generic_built as [B M]. exists (allpairs cutoffs n s' rev cutoff r masked). split; [|apply generic_counted].
    destruct (buildPairList_spec lower upper cutoffs n g (locals ++ ghosts) s' B rev cutoff r masked M capA p) as [[E' _]|(p'' & E' & Hv & _)]; congruence.
  Qed.
  Lemma some_pair a b : a ∈ locals -> b ∈ locals -> a <> b -> interacts cutoff r masked a b -> allpairs cutoffs n s' rev cutoff r masked <> [].
  Proof.
    intros Ha Hb Hne Hi E. destruct (co_local _ _ _ _ _ _ generic_counted a b Ha Hb Hne Hi) as [[H _]|[H _]]; rewrite E in H; by apply elem_of_nil in H.
  Qed.
  Lemma generic_ok : (0 < capA)%nat -> (length locals + length ghosts <= MaxNeighborAtom)%nat ->
    ((0 < vCap2 p)%nat \/ allpairs cutoffs n s' rev cutoff r masked <> []) -> exists p', buildPairList capA s' rev cutoff r masked p = Ok p'.
  Proof.
    intros Hcap Hfew Hsome. destruct generic_built as [B M].
    destruct (buildPairList_spec lower upper cutoffs n g (locals ++ ghosts) s' B rev cutoff r masked M capA p) as [[_ H]|(p' & E & _)]; [|by exists p'].
    exfalso. destruct H as [?|[(c & Hc & H)|[H1 H2]]]; [lia| |destruct Hsome; [lia|done]].
    pose proof (nbof_length lower upper cutoffs n g _ s' B (ho_nodup _ _ _ _ _ _ Hh) rev r masked M c Hc) as HL.
    rewrite app_length in HL. lia.
  Qed.
  Lemma generic_outcome : (0 < capA)%nat ->
    match buildPairList capA s' rev cutoff r masked p with
    | Ok _ => True
    | Throw => (MaxNeighborAtom < length locals + length ghosts)%nat \/ (vCap2 p = 0%nat /\ allpairs cutoffs n s' rev cutoff r masked = [])
    | UB => False
    end.
  Proof.
    intros Hcap. destruct generic_built as [B M].
    destruct (buildPairList_spec lower upper cutoffs n g (locals ++ ghosts) s' B rev cutoff r masked M capA p) as [[E H]|(p' & E & _)]; rewrite E; [|done].
    destruct H as [?|[(c & Hc & H)|?]]; [lia| |by right]. left.
    pose proof (nbof_length lower upper cutoffs n g _ s' B (ho_nodup _ _ _ _ _ _ Hh) rev r masked M c Hc) as HL.
    rewrite app_length in HL. lia.
  Qed.
End generic.
