(** Properties C23 (neighbouring processors agree) and C24 (domains partition the
    box). *)
From Verif Require Import Base Vec3 DomainModel DomainSpec DomainProofs.
From Coq Require Import Reals Lra.
Local Open Scope Z_scope.

(** C23.  In every processor grid, for every rank p, axis and direction: the
    destination q is a rank of the grid, its coordinates differ from those of p only
    along the axis, by one step with periodic wrap; q receives from p in the same
    direction, and p's own source sends to p.  The shift that the receiver p applies
    is -1, 0 or 1, is nonzero exactly when the source lies across the periodic
    boundary, and is the number of periods between the unwrapped and the actual
    coordinate of the source. *)
Theorem domain_transfers_agree :
  forall dims p i j Dp, grid_ok dims -> 0 <= p < grid_size dims -> (i < 3)%nat -> (j < 2)%nat ->
  domain_of dims p Dp ->
  let q := dDest Dp i j in
  let r := dSource Dp i j in
  exists Dq Dr, domain_of dims q Dq /\ domain_of dims r Dr /\
    0 <= q < grid_size dims /\ 0 <= r < grid_size dims /\
    dSource Dq i j = p /\ dDest Dr i j = p /\
    (forall a, (a < 3)%nat -> a <> i -> vget (dCoords Dq) a = vget (dCoords Dp) a) /\
    vget (dCoords Dq) i = (vget (dCoords Dp) i + step_of j) mod vget dims i /\
    -1 <= dShift Dp i j <= 1 /\
    (dShift Dp i j <> 0 <->
       (vget (dCoords Dp) i - step_of j < 0 \/ vget dims i <= vget (dCoords Dp) i - step_of j)) /\
    vget (dCoords Dp) i - step_of j = vget (dCoords Dr) i + dShift Dp i j * vget dims i.
Proof.
  intros dims p i j Dp Hd Hp Hi Hj HD q r.
  destruct (initialize_tables _ _ _ Hd HD) as (HD1 & HD2 & HD3 & HT).
  pose proof (position_in_grid _ _ Hd Hp) as Hin.
  destruct (HT i j Hi Hj) as (Hsrc & Hdst & Hsh).
  assert (Hq : 0 <= q < grid_size dims).
  { unfold q. rewrite Hdst. apply rank_range; [done|]. by apply nbr_in_grid. }
  assert (Hr : 0 <= r < grid_size dims).
  { unfold r. rewrite Hsrc. apply rank_range; [done|]. by apply nbr_in_grid. }
  destruct (domain_of_exists dims q Hd) as [Dq HDq].
  destruct (domain_of_exists dims r Hd) as [Dr HDr].
  exists Dq, Dr. split; [done|]. split; [done|]. split; [done|]. split; [done|].
  destruct (initialize_tables _ _ _ Hd HDq) as (Q1 & Q2 & Q3 & QT).
  destruct (initialize_tables _ _ _ Hd HDr) as (R1 & R2 & R3 & RT).
  destruct (QT i j Hi Hj) as (Qsrc & _). destruct (RT i j Hi Hj) as (_ & Rdst & _).
  assert (Eq : grid_position dims q = nbr dims (grid_position dims p) i (step_of j)).
  { unfold q. rewrite Hdst. apply position_rank; [done|]. by apply nbr_in_grid. }
  assert (Er : grid_position dims r = nbr dims (grid_position dims p) i (- step_of j)).
  { unfold r. rewrite Hsrc. apply position_rank; [done|]. by apply nbr_in_grid. }
  rewrite Eq in Qsrc, Q3. rewrite Er in Rdst, R3.
  rewrite nbr_nbr in Qsrc by done.
  pose proof (nbr_nbr dims (grid_position dims p) i (- step_of j) Hd Hin Hi) as Hnn.
  rewrite Z.opp_involutive in Hnn. rewrite Hnn in Rdst.
  rewrite rank_position in Qsrc, Rdst by done.
  split; [done|]. split; [done|].
  rewrite Q3, R3, HD3. unfold nbr. rewrite !vget_vset_eq.
  pose proof (in_grid_get _ _ i Hin) as Hc.
  destruct (shift_value _ _ (- step_of j) Hc) as (S1 & S2 & S3).
  { unfold step_of. destruct j; lia. }
  rewrite Hsh. replace (vget (grid_position dims p) i - step_of j)
    with (vget (grid_position dims p) i + - step_of j) by lia.
  split; [|split; [done|split; [done|split; [done|lia]]]].
  intros a Ha Hne. by rewrite vget_vset_ne by auto.
Qed.

(** The tables agree on a 3 x 2 x 1 grid, rank 4 = (2,0,0): going up along x it sends
    to rank 0, across the periodic boundary. *)
Example domain_example :
  exists D, domain_of (V3 3 2 1) 4 D /\ dCoords D = V3 2 0 0 /\
    dDest D 0 1 = 0 /\ dSource D 0 1 = 2 /\ dShift D 0 1 = 0 /\
    dSource D 0 0 = 0 /\ dShift D 0 0 = 1 /\ dSource D 2 0 = 4 /\ dShift D 2 0 = 1.
Proof. eexists. split; [reflexivity|]. vm_compute. done. Qed.

Local Open Scope R_scope.

(** C24.  Every position of the box lies in exactly one domain; that domain is the
    one named by ownerRank (computed on any processor), and domainBound gives its
    faces. *)
Theorem domains_partition_the_box :
  forall dims pos, grid_ok dims -> in_cell pos ->
  exists r, (0 <= r < grid_size dims)%Z /\
    (forall p D, (0 <= p < grid_size dims)%Z -> domain_of dims p D ->
       ownerRank D pos = Ok r /\
       (isInDomain D pos = true <-> p = r) /\
       (isInDomain D pos = true <->
          forall i, (i < 3)%nat -> domainBound D i 0 <= vget pos i < domainBound D i 1)).
Proof.
  intros dims pos Hd (Px & Py & Pz).
  pose proof Hd as (Dx & Dy & Dz).
  destruct (owner_axis_spec (vx dims) (vx pos) Dx Px) as (c0 & O0 & B0 & I0).
  destruct (owner_axis_spec (vy dims) (vy pos) Dy Py) as (c1 & O1 & B1 & I1).
  destruct (owner_axis_spec (vz dims) (vz pos) Dz Pz) as (c2 & O2 & B2 & I2).
  exists (grid_rank dims (V3 c0 c1 c2)).
  assert (Hin : in_grid dims (V3 c0 c1 c2)) by (split; [|split]; simpl; lia).
  split; [by apply rank_range|].
  intros p D Hp HD. destruct (initialize_tables _ _ _ Hd HD) as (HD1 & _ & HD3 & _).
  pose proof (position_in_grid _ _ Hd Hp) as Hpin.
  split; [|split].
  - unfold ownerRank. rewrite HD1, O0. simpl. rewrite O1. simpl. rewrite O2. done.
  - unfold isInDomain. rewrite !andb_true_iff.
    rewrite !in_axis_iff by (rewrite HD1; apply vget3_pos, Hd).
    rewrite HD1, HD3. cbn [vget]. split.
    + intros [[H0 H1] H2].
      rewrite <- (rank_position dims p) by done. f_equal. apply vec3_ext.
      intros [|[|[|]]] Hi; simpl; [..|lia].
      * eapply IZR_interval; [apply H0|done].
      * eapply IZR_interval; [apply H1|done].
      * eapply IZR_interval; [apply H2|done].
    + intros ->. rewrite position_rank by done. simpl. done.
  - unfold isInDomain. rewrite !andb_true_iff.
    rewrite !in_axis_iff by (rewrite HD1; apply vget3_pos, Hd).
    rewrite <- !bound_iff by (rewrite HD1; apply vget3_pos, Hd). split.
    + intros [[H0 H1] H2] [|[|[|]]] Hi; simpl; [done|done|done|lia].
    + intros H. split; [split|]; [apply (H 0%nat)|apply (H 1%nat)|apply (H 2%nat)]; lia.
Qed.

Example partition_example : grid_ok (V3 3 2 1)%Z /\ in_cell (V3 (1/2) 0 (9/10)).
Proof. split; [unfold grid_ok; simpl; lia|]. unfold in_cell; simpl. lra. Qed.

Print Assumptions domain_transfers_agree.
Print Assumptions domains_partition_the_box.
