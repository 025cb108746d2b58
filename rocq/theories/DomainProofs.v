From Verif Require Import Base Vec3 DomainModel DomainSpec.
From Coq Require Import Reals Lra.
Local Open Scope Z_scope.

Lemma vget3_pos d i : grid_ok d -> 0 < vget d i.
Proof. intros (?&?&?). destruct i as [|[|]]; done. Qed.

Lemma in_grid_get d p i : in_grid d p -> 0 <= vget p i < vget d i.
Proof. intros (?&?&?). destruct i as [|[|]]; done. Qed.

Lemma in_grid_of d p : (forall i, (i < 3)%nat -> 0 <= vget p i < vget d i) -> in_grid d p.
Proof. intros H. split; [apply (H 0%nat)|split; [apply (H 1%nat)|apply (H 2%nat)]]; lia. Qed.

Lemma rank_range d p : grid_ok d -> in_grid d p -> 0 <= grid_rank d p < grid_size d.
Proof.
  intros (Hx&Hy&Hz) (Px&Py&Pz). unfold grid_rank, grid_size.
  assert (0 <= vy p + vy d * vx p < vy d * vx d) by nia. nia.
Qed.

Lemma position_rank d p : grid_ok d -> in_grid d p -> grid_position d (grid_rank d p) = p.
Proof.
  intros (Hx&Hy&Hz) (Px&Py&Pz). unfold grid_position, grid_rank.
  assert (0 <= vz p + vz d * vy p < vy d * vz d) as Hb by nia.
  replace (vz p + vz d * (vy p + vy d * vx p))
    with ((vz p + vz d * vy p) + vx p * (vy d * vz d)) by ring.
  rewrite Z.div_add by lia. rewrite Z.mod_add by lia.
  rewrite Z.div_small by done. rewrite Z.mod_small by done.
  replace (vz p + vz d * vy p) with (vz p + vy p * vz d) by ring.
  rewrite Z.div_add, Z.mod_add by lia. rewrite Z.div_small, Z.mod_small by done.
  destruct p; reflexivity.
Qed.

Lemma position_in_grid d r : grid_ok d -> 0 <= r < grid_size d -> in_grid d (grid_position d r).
Proof.
  intros (Hx&Hy&Hz) Hr. unfold grid_size in Hr. unfold in_grid, grid_position; simpl.
  assert (0 < vy d * vz d) by nia.
  pose proof (Z.mod_pos_bound r (vy d * vz d) ltac:(done)).
  repeat split.
  - by apply Z.div_pos; lia.
  - apply Z.div_lt_upper_bound; nia.
  - apply Z.div_pos; lia.
  - apply Z.div_lt_upper_bound; nia.
  - by apply Z.mod_pos_bound.
  - by apply Z.mod_pos_bound.
Qed.

Lemma rank_position d r : grid_ok d -> grid_rank d (grid_position d r) = r.
Proof.
  intros (Hx&Hy&Hz). unfold grid_rank, grid_position; simpl.
  pose proof (Z.div_mod r (vy d * vz d) ltac:(nia)).
  pose proof (Z.div_mod (r mod (vy d * vz d)) (vz d) ltac:(nia)). nia.
Qed.

(* Grid::shift is floor division *)
Lemma grid_shift_spec dim c : 0 < dim -> grid_shift dim c = (c / dim, c mod dim).
Proof.
  intros Hd. unfold grid_shift.
  assert ((if 0 <=? c then Z.quot c dim else -1 + Z.quot (c + 1) dim) = c / dim) as ->.
  { destruct (Z.leb_spec 0 c).
    - by apply Z.quot_div_nonneg.
    - replace (c + 1) with (- (- (c + 1))) by lia. rewrite Z.quot_opp_l by lia.
      rewrite Z.quot_div_nonneg by lia.
      pose proof (Z.div_mod (-(c+1)) dim ltac:(lia)).
      pose proof (Z.mod_pos_bound (-(c+1)) dim Hd).
      apply (Z.div_unique _ _ _ (dim - 1 - (-(c+1)) mod dim)); [left; lia|]. lia. }
  f_equal. pose proof (Z.div_mod c dim ltac:(lia)). lia.
Qed.

Definition nbr (d p : vec3 Z) (i : nat) (k : Z) : vec3 Z :=
  vset p i ((vget p i + k) mod vget d i).

Lemma nbr_in_grid d p i k : grid_ok d -> in_grid d p -> (i < 3)%nat -> in_grid d (nbr d p i k).
Proof.
  intros Hd Hp Hi. apply in_grid_of. intros a Ha. unfold nbr.
  destruct (decide (i = a)) as [->|].
  - rewrite vget_vset_eq. apply Z.mod_pos_bound. by apply vget3_pos.
  - rewrite vget_vset_ne by done. by apply in_grid_get.
Qed.

Lemma nbr_nbr d p i k : grid_ok d -> in_grid d p -> (i < 3)%nat ->
  nbr d (nbr d p i k) i (- k) = p.
Proof.
  intros Hd Hp Hi. unfold nbr. rewrite vset_vset, vget_vset_eq.
  rewrite Zplus_mod_idemp_l. replace (vget p i + k + - k) with (vget p i) by lia.
  rewrite Z.mod_small by (by apply in_grid_get). apply vset_id.
Qed.

Lemma domain_link_eq D i j : 0 < vget (dDims D) i ->
  domain_link D i j =
  let k := match j with 0%nat => 1 | _ => -1 end in
  let jp := match j with 0%nat => 1%nat | _ => 0%nat end in
  let src := grid_rank (dDims D) (nbr (dDims D) (dCoords D) i k) in
  Domain (dDims D) (dRank D) (dCoords D)
         (tab_set (dShift D) i j ((vget (dCoords D) i + k) / vget (dDims D) i))
         (tab_set (dSource D) i j src) (tab_set (dDest D) i jp src).
Proof. intros H. unfold domain_link. by rewrite grid_shift_spec by done. Qed.

(* the tables built by initialize *)
Lemma initialize_tables d r D : grid_ok d -> domain_of d r D ->
  dDims D = d /\ dRank D = r /\ dCoords D = grid_position d r /\
  forall i j, (i < 3)%nat -> (j < 2)%nat ->
    dSource D i j = grid_rank d (nbr d (grid_position d r) i (- step_of j)) /\
    dDest D i j = grid_rank d (nbr d (grid_position d r) i (step_of j)) /\
    dShift D i j = (vget (grid_position d r) i - step_of j) / vget d i.
Proof.
  intros Hd H. unfold domain_of, domain_initialize in H.
  destruct Hd as (Hx&Hy&Hz).
  rewrite (proj2 (Z.leb_gt _ _)) in H by lia.
  rewrite (proj2 (Z.leb_gt _ _)) in H by lia.
  rewrite (proj2 (Z.leb_gt _ _)) in H by lia. simpl orb in H. cbv iota in H.
  unfold grid_size in H. rewrite Z.eqb_refl in H. simpl negb in H. cbv iota in H.
  injection H as <-.
  assert (Hp : forall i, 0 < vget d i) by (intros i; by apply vget3_pos).
  cbn [fold_left fst snd].
  generalize (grid_position d r). intros c.
  repeat match goal with |- context [domain_link (Domain ?a ?b ?c ?f ?g ?h) ?i ?j] =>
    rewrite (domain_link_eq (Domain a b c f g h) i j (Hp i));
    cbn [dDims dCoords dShift dSource dDest dRank]; cbv zeta end.
  split; [done|]. split; [done|]. split; [done|].
  intros i j Hi Hj. clear Hp. unfold Z.sub. generalize grid_rank nbr Z.div. intros gr nb dv.
  destruct i as [|[|[|]]], j as [|[|]]; try lia;
    (split; [reflexivity|split; reflexivity]).
Qed.

Lemma domain_of_exists d r : grid_ok d -> exists D, domain_of d r D.
Proof.
  intros (Hx&Hy&Hz). unfold domain_of, domain_initialize.
  rewrite (proj2 (Z.leb_gt _ _)) by lia.
  rewrite (proj2 (Z.leb_gt _ _)) by lia.
  rewrite (proj2 (Z.leb_gt _ _)) by lia.
  unfold grid_size. rewrite Z.eqb_refl. simpl. eauto.
Qed.

Lemma shift_value c dim k : 0 <= c < dim -> k = 1 \/ k = -1 ->
  ((c + k) / dim <> 0 <-> c + k < 0 \/ dim <= c + k) /\
  (c + k) / dim * dim + (c + k) mod dim = c + k /\ -1 <= (c + k) / dim <= 1.
Proof.
  intros Hc Hk. split; [|split].
  - split.
    + intros H. destruct (decide (0 <= c + k < dim)); [|lia].
      rewrite Z.div_small in H by lia. lia.
    + intros [H|H].
      * assert ((c + k) / dim < 0) by (apply Z.div_lt_upper_bound; lia). lia.
      * assert (1 <= (c + k) / dim) by (apply Z.div_le_lower_bound; lia). lia.
  - pose proof (Z.div_mod (c + k) dim ltac:(lia)). lia.
  - split; [apply Z.div_le_lower_bound; lia|].
    assert ((c + k) / dim < 2); [apply Z.div_lt_upper_bound; lia|lia].
Qed.

(** geometry *)
Local Open Scope R_scope.

Lemma Rtrunc_spec x : 0 <= x -> IZR (Rtrunc x) <= x < IZR (Rtrunc x) + 1.
Proof.
  intros H. unfold Rtrunc. destruct (Rle_dec 0 x); [|lra].
  rewrite minus_IZR. destruct (archimed x). lra.
Qed.

Lemma IZR_interval (n : Z) (x : R) (m : Z) :
  IZR n <= x < IZR n + 1 -> IZR m <= x < IZR m + 1 -> n = m.
Proof.
  intros H1 H2. assert (IZR n < IZR m + 1) by lra. assert (IZR m < IZR n + 1) by lra.
  rewrite <- plus_IZR in H, H0. apply lt_IZR in H, H0. lia.
Qed.

Lemma Rtrunc_unique x n : 0 <= x -> IZR n <= x < IZR n + 1 -> Rtrunc x = n.
Proof. intros H Hn. eapply IZR_interval; [by apply Rtrunc_spec|done]. Qed.

Lemma div_dL x (dim : Z) : (0 < dim)%Z -> x / (1 / IZR dim) = x * IZR dim.
Proof. intros H. assert (0 < IZR dim) by (by apply IZR_lt). field. lra. Qed.

Lemma owner_axis_spec dim x : (0 < dim)%Z -> 0 <= x < 1 ->
  exists c, owner_axis dim x = Ok c /\ (0 <= c < dim)%Z /\
    IZR c <= x * IZR dim < IZR c + 1.
Proof.
  intros Hd Hx. assert (0 < IZR dim) by (by apply IZR_lt).
  unfold owner_axis. rewrite div_dL by done.
  assert (0 <= x * IZR dim) as H0 by nra.
  pose proof (Rtrunc_spec _ H0) as Hr. set (r := Rtrunc (x * IZR dim)) in *.
  assert (0 <= r)%Z.
  { assert (IZR (-1) < IZR r) as Hl by lra. apply lt_IZR in Hl. lia. }
  assert (r < dim)%Z. { apply lt_IZR. nra. }
  exists r. split; [|done].
  rewrite (proj2 (Z.ltb_ge _ _)) by lia.
  destruct (Z.geb_spec r dim); [lia|done].
Qed.

Lemma in_axis_iff D i x : (0 < vget (dDims D) i)%Z ->
  in_axis D i x = true <->
  IZR (vget (dCoords D) i) <= x * IZR (vget (dDims D) i) < IZR (vget (dCoords D) i) + 1.
Proof.
  intros Hd. assert (0 < IZR (vget (dDims D) i)) as H by (by apply IZR_lt).
  unfold in_axis. set (n := IZR (vget (dDims D) i)) in *.
  set (c := IZR (vget (dCoords D) i)) in *.
  assert (forall a, a * (1 / n) <= x <-> a <= x * n) as E.
  { intros a. assert (a * (1/n) * n = a) as Ha by (field; lra). split; intros Hl.
    - rewrite <- Ha. apply Rmult_le_compat_r; lra.
    - apply (Rmult_le_reg_r n); [lra|]. lra. }
  destruct (Rlt_dec x (c * (1/n))) as [H1|H1].
  - split; [done|]. intros [H2 _]. apply E in H2. lra.
  - apply Rnot_lt_le, E in H1.
    destruct (Rge_dec x ((c+1) * (1/n))) as [H2|H2].
    + split; [done|]. apply Rge_le, E in H2. lra.
    + split; [|done]. intros _. split; [done|].
      destruct (Rle_dec (c+1) (x*n)) as [H3|H3]; [|lra]. apply E in H3. lra.
Qed.

Lemma bound_iff D i x : (0 < vget (dDims D) i)%Z ->
  domainBound D i 0 <= x < domainBound D i 1 <->
  IZR (vget (dCoords D) i) <= x * IZR (vget (dDims D) i) < IZR (vget (dCoords D) i) + 1.
Proof.
  intros Hd. assert (0 < IZR (vget (dDims D) i)) as H by (by apply IZR_lt).
  unfold domainBound. simpl INR. set (n := IZR (vget (dDims D) i)) in *.
  set (c := IZR (vget (dCoords D) i)) in *.
  assert (forall a, a * (1/n) * n = a) as Ha by (intros; field; lra). rewrite Rplus_0_r.
  split; intros [H1 H2]; split.
  - rewrite <- (Ha c). apply Rmult_le_compat_r; lra.
  - rewrite <- (Ha (c + 1)). apply Rmult_lt_compat_r; lra.
  - apply (Rmult_le_reg_r n); [lra|]. rewrite Ha. lra.
  - apply (Rmult_lt_reg_r n); [lra|]. rewrite Ha. lra.
Qed.
