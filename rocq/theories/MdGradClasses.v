(** The interaction classes satisfy the conditions of C62, and an example. *)
From Coq Require Import Reals Lra.
From Coquelicot Require Import Coquelicot.
From stdpp Require Import gmap.
From Verif Require Import PairModel PairSpec PairProofs PairProps BondModel BondSpec BondProps AngleModel AngleSpec AngleProofs AngleProps.
From Verif Require Import DihedralModel DihedralSpec DihedralProofs DihedralProps Deriv.
From Verif Require Import Base Vec3 BoxSpec OrthoModel OrthoSpec OrthoProofs OrthoProps MonoModel MonoSpec.
From Verif Require Import CellListModel CellListSpec CellListProofs PairListModel PairListSpec PairListProofs PairListProps.
From Verif Require Import EnergyModel EnergySpec EnergyProofs EnergyProps MoveProps MdModel MdSpec MdProofs MdForces MdProps GradSpec MdGradSpec MdGradProofs MdGradProps.
From Coq Require Import Reals Lra.
Local Open Scope R_scope.

(** Atom and group type ids as indices. *)
Definition ix (t : Z) : nat := Z.to_nat t.

(** Lennard-Jones pairs, outside the core where energy is constant (C33) and not exactly at the cutoff. *)
Lemma lj_pair_smooth y junk N eps sig cut ops p pos i j :
  lj_life junk N eps sig cut ops = Ok p -> (ix (yTy y i) < N)%nat -> (ix (yTy y j) < N)%nat ->
  (forall r t1 t2, yFr y r t1 t2 = lj_forceOverR p r (ix t1) (ix t2)) ->
  (forall t1 t2, yCutsq y t1 t2 = lCutSq p (ix t1) (ix t2)) ->
  let r := sqrt (yDr y (pos i) (pos j)).1 in
  let s := lSig p (ix (yTy y i)) (ix (yTy y j)) in
  off_faces (yB y) (pos i) (pos j) -> 0 < r -> 0 < s -> 6/10 * s * s < r * r ->
  0 < cut (ix (yTy y i)) (ix (yTy y j)) -> r <> cut (ix (yTy y i)) (ix (yTy y j)) ->
  pair_smooth y (fun r t1 t2 => lj_energy p r (ix t1) (ix t2)) pos i j.
Proof.
  intros Hl Hi Hj Hfr Hcs r s Hf Hr Hs Hcore Hc Hrc. split; [done|]. fold r. split; [done|]. rewrite Hcs, Hfr.
  destruct (lj_force_is_gradient_partial _ _ _ _ _ _ _ (ix (yTy y i)) (ix (yTy y j)) r Hl Hi Hj) as [Hcut HD].
  destruct (lj_life_reach _ _ _ _ _ _ _ Hl) as [Rn Rc Ro]. pose proof (lo_cutSq _ _ _ (Ro _ _ Hi Hj)) as HQ.
  rewrite Rc in HQ by done. set (c := cut (ix (yTy y i)) (ix (yTy y j))) in *. rewrite HQ.
  destruct (Rlt_dec (r * r) (c * c)) as [Hlt|Hge].
  - apply (HD s); try done. nra.
  - assert (Hgt : c < r) by (destruct (Rtotal_order r c) as [|[|]]; [nra|done|done]).
    apply (is_derive_between c (r + 1) r 0 _ (fun _ => 0)); [lra| |apply (is_derive_const (V := R_NormedModule))].
    intros z Hz. unfold lj_energy. rewrite HQ. destruct (Rlt_dec _ _); [nra|done].
Qed.
Lemma harmonic_bond_smooth y n k l ops b pos K g i j :
  hb_life n k l ops = Ok b -> (ix (gTy g) < 8)%nat -> gAt g = [i; j] ->
  kE (fK K) = bond_kE (bDist (yB y)) (fun r t => hb_energy b r (ix t)) -> fF K = bond_kF (yDr y) (fun r t => hb_forceOverR b r (ix t)) ->
  off_faces (yB y) (pos i) (pos j) -> 0 < (yDr y (pos i) (pos j)).1 -> bond_smooth y pos K g.
Proof.
  intros Hl Ht Hg HE HF Hf Hr. exists i, j, (fun r t => hb_energy b r (ix t)), (fun r t => hb_forceOverR b r (ix t)).
  do 4 (split; [done|]). cbv zeta. apply sqrt_lt_R0 in Hr. split; [done|].
  eapply (harmonic_bond_force_is_gradient n k l ops b (ix (gTy g))); [done|reflexivity|reflexivity|done].
Qed.
Lemma cosineSq_angle_smooth y n k t0 ops a pos K g i j l :
  cs_life n k t0 ops = Ok a -> gAt g = [i; j; l] ->
  kE (fK K) = angle_kE (fun p q => (yDr y p q).2) (bDist (yB y)) (fun c t => cs_energy a c (ix t)) ->
  fF K = angle_kF (yDr y) (fun b1 b2 t => cs_force a b1 b2 (ix t)) ->
  off_faces (yB y) (pos j) (pos i) -> off_faces (yB y) (pos l) (pos j) ->
  0 < normSq (yDr y (pos j) (pos i)).2 -> 0 < normSq (yDr y (pos l) (pos j)).2 -> angle_smooth y pos K g.
Proof.
  intros Hl Hg HE HF H1 H2 P1 P2. exists i, j, l, (fun c t => cs_energy a c (ix t)), (fun b1 b2 t => cs_force a b1 b2 (ix t)).
  do 5 (split; [done|]). cbv zeta. split; [done|]. split; [done|].
  set (b1 := (yDr y (pos j) (pos i)).2) in *. set (b2 := (yDr y (pos l) (pos j)).2) in *.
  destruct (cosineSq_angle_force_is_gradient n k t0 ops a (ix (gTy g)) (V3 0 0 0) b1 (vadd b1 b2) Hl) as [HG _].
  - replace (vsub b1 (V3 0 0 0)) with b1; [done|]. destruct b1; unfold vsub; cbn; f_equal; ring.
  - replace (vsub (vadd b1 b2) b1) with b2; [done|]. destruct b1, b2; unfold vsub, vadd; cbn; f_equal; ring.
  - replace (vsub b1 (V3 0 0 0)) with b1 in HG by (destruct b1; unfold vsub; cbn; f_equal; ring).
    replace (vsub (vadd b1 b2) b1) with b2 in HG by (destruct b1, b2; unfold vsub, vadd; cbn; f_equal; ring). done.
Qed.
Lemma cosine_dihedral_smooth y n k ops d pos K g i j l m :
  cd_life n k ops = Ok d -> (ix (gTy g) < 8)%nat -> gAt g = [i; j; l; m] ->
  kE (fK K) = dihedral_kE (fun p q => (yDr y p q).2) (fun b1 b2 b3 t => cd_energy d b1 b2 b3 (ix t)) ->
  fF K = dihedral_kF (yDr y) (fun b1 b2 b3 t => let f := cd_force d b1 b2 b3 (ix t) in (vx f, vy f, vz f)) ->
  off_faces (yB y) (pos j) (pos i) -> off_faces (yB y) (pos l) (pos j) -> off_faces (yB y) (pos m) (pos l) ->
  let b1 := (yDr y (pos j) (pos i)).2 in let b2 := (yDr y (pos l) (pos j)).2 in let b3 := (yDr y (pos m) (pos l)).2 in
  well_defined b1 b2 b3 \/ degenerate b1 b2 b3 -> dihedral_smooth y pos K g.
Proof.
  intros Hl Ht Hg HE HF H1 H2 H3 b1 b2 b3 HW.
  exists i, j, l, m, (fun b1 b2 b3 t => cd_energy d b1 b2 b3 (ix t)), (fun b1 b2 b3 t => let f := cd_force d b1 b2 b3 (ix t) in (vx f, vy f, vz f)).
  do 6 (split; [done|]). cbv zeta. fold b1 b2 b3.
  assert (R1 : vsub b1 (V3 0 0 0) = b1) by (destruct b1; unfold vsub; cbn; f_equal; ring).
  assert (R2 : vsub (vadd b1 b2) b1 = b2) by (destruct b1, b2; unfold vsub, vadd; cbn; f_equal; ring).
  assert (R3 : vsub (vadd (vadd b1 b2) b3) (vadd b1 b2) = b3) by (destruct b1, b2, b3; unfold vsub, vadd; cbn; f_equal; ring).
  destruct (cosine_dihedral_force_is_gradient n k ops d (ix (gTy g)) (cdK d (ix (gTy g))) (V3 0 0 0) b1 (vadd b1 b2) (vadd (vadd b1 b2) b3) Hl) as [_ HG].
  { unfold cd_get. destruct (Nat.ltb_spec (ix (gTy g)) 8); [done|lia]. }
  rewrite R1, R2, R3 in HG. specialize (HG HW). unfold dihedral_forces_ok, dihedral_atom_forces in HG. destruct HG as [HG _].
  set (f := cd_force d b1 b2 b3 (ix (gTy g))) in *. intros e1 e2 e3.
  pose proof (HG (V3 0 0 0) e1 (vadd e1 e2) (vadd (vadd e1 e2) e3)) as HD.
  eapply is_derive_eq; [eapply is_derive_ext; [|exact HD]|].
  - intros t. cbv beta. f_equal; unfold GradSpec.move, vsub, vadd, vscale; cbn [vx vy vz]; f_equal; ring.
  - unfold vopp, vdot, vsub, vadd, vscale. cbn [vx vy vz]. ring.
Qed.

(** Two atoms on either side of a face, bound by a harmonic bond and repelling each other: the conditions of C62 hold, and
    the work in the direction of the first atom's force is 3. *)
Definition eg_hb : hbond := match hb_life 1 (fun _ => 3) (fun _ => 7/5) [] with Ok b => b | _ => hb_new end.
Definition eg_bond : fkind :=
  FK (GK (bond_kE (distanceSq ex_box) (fun r t => hb_energy eg_hb r (ix t))) [0%nat] (fun _ => [Grp [0; 1]%nat 0%Z]) (fun _ => 0%nat) (fun _ => [0%nat]))
     (bond_kF (distanceSq_dr ex_box) (fun r t => hb_forceOverR eg_hb r (ix t))).
Definition eg_y : mdsys :=
  MS 61 (ortho_bd ex_box) (distanceSq_dr ex_box) (fun _ _ => false) (fun _ _ _ => 1) (fun _ _ => 1) [eg_bond] None
     [0; 1]%nat (fun _ => 0%Z) (fun _ => 1) (1/10).
Definition eg_u (r : R) (t1 t2 : Z) : R := if Rlt_dec r 1 then (1 - r) / 2 else 0.
Definition eg_pos (a : nat) : vec3 R := if decide (a = 0)%nat then V3 (1/5) 1 1 else V3 (48/5) 1 1.
Example gradient_example :
  md_ok eg_y 2 (1/2) 1 (V3 6 6 6)%Z /\ groups_ok eg_y /\ nearby eg_y eg_pos /\ smooth_at eg_y eg_u None eg_pos /\
  work (yAtoms eg_y) (total_force eg_y eg_pos) (fun a => if decide (a = 0)%nat then V3 1 0 0 else V3 0 0 0) = 3.
Proof.
  destruct ex_wf as [lat W].
  assert (D : distanceSq_dr ex_box (V3 (1/5) 1 1) (V3 (48/5) 1 1) = (3/5 * (3/5), V3 (3/5) 0 0)).
  { unfold distanceSq_dr. rewrite !(sep_eq _ _ _ _ _ _ W) by lia. cbn [vget vx vy vz].
    rewrite sep_lo by (try lra; rewrite Rabs_left by lra; lra). rewrite !sep_in by (apply Rabs_le; lra). cbn [fst]. f_equal; [lra|]. f_equal; lra. }
  assert (D' : distanceSq_dr ex_box (V3 (48/5) 1 1) (V3 (1/5) 1 1) = (3/5 * (3/5), V3 (- (3/5)) 0 0)).
  { rewrite (ortho_dr_sym ex_box (V3 (1/5) 1 1) (V3 (48/5) 1 1) ex_a_box), D. cbn [fst snd]. unfold vscale. cbn [vx vy vz]. f_equal. f_equal; ring. }
  assert (SQ : sqrt (3/5 * (3/5)) = 3/5) by (apply sqrt_square; lra).
  assert (OF : off_faces (ortho_bd ex_box) (V3 (1/5) 1 1) (V3 (48/5) 1 1) /\ off_faces (ortho_bd ex_box) (V3 (48/5) 1 1) (V3 (1/5) 1 1)).
  { split; intros i Hi; cbn [ortho_bd bGen]; unfold cartToGen; rewrite (w_inv _ _ _ W); destruct i as [|[|[|]]]; try lia; cbn [vget vx vy vz];
      unfold Rabs; destruct (Rcase_abs _); lra. }
  destruct OF as [OF OF'].
  assert (Q0 : eg_pos 0%nat = V3 (1/5) 1 1) by done. assert (Q1 : eg_pos 1%nat = V3 (48/5) 1 1) by done.
  split.
  { destruct ex_ok as [H1 H2 H3 H4 H5 H6 H7 H8]. by split. }
  split.
  { intros k m g ->%elem_of_list_singleton Hm ->%elem_of_list_singleton. split; [done|]. intros pos. cbn. by destruct (distanceSq_dr ex_box (pos 0%nat) (pos 1%nat)). }
  split.
  { intros a _. unfold eg_pos. destruct (decide _); apply ex_near_x; lra. }
  split.
  { split.
    - assert (P : forall x, x = 3/5 -> is_derive (fun z => eg_u (z * z) 0 0) x (if Rlt_dec (x * x) 1 then - (1 * x) else 0)).
      { intros x ->. destruct (Rlt_dec _ _); [|lra]. apply (is_derive_between 0 1 _ _ _ (fun z => (1 - z * z) / 2)); [lra| |auto_derive; [done|lra]].
        intros z Hz. unfold eg_u. destruct (Rlt_dec _ _); [done|nra]. }
      intros i j Hi Hj Hij _. cbn [eg_y yAtoms] in Hi, Hj. rewrite !elem_of_cons, elem_of_nil in Hi, Hj.
      destruct Hi as [->|[->|[]]], Hj as [->|[->|[]]]; try done; unfold pair_smooth; cbn [eg_y yDr yB yTy yCutsq yFr];
        rewrite Q0, Q1, ?D, ?D'; cbn [fst]; rewrite SQ; (split; [done|]); (split; [lra|]); by apply P.
    - intros k m g ->%elem_of_list_singleton Hm ->%elem_of_list_singleton. left.
      apply (harmonic_bond_smooth eg_y 1 (fun _ => 3) (fun _ => 7/5) [] eg_hb eg_pos eg_bond (Grp [0; 1]%nat 0%Z) 0 1); [done|unfold ix; cbn [gTy]; lia|done|done|done|rewrite Q0, Q1; exact OF|].
      + rewrite Q0, Q1. cbn [eg_y yDr]. rewrite D. cbn [fst]. lra.
    - intros a _. done. }
  assert (FB : fF eg_bond [eg_pos 0%nat; eg_pos 1%nat] 0 = [V3 (12/5) 0 0]).
  { cbn [eg_bond fF map bond_kF]. rewrite Q0, Q1, D. f_equal. unfold hb_forceOverR. rewrite SQ. unfold vscale. cbn [vx vy vz].
    assert (hbK eg_hb (ix 0) = 3) as -> by done. assert (hbL eg_hb (ix 0) = 7/5) as -> by done. f_equal; lra. }
  assert (T0 : vget (total_force eg_y eg_pos 0%nat) 0 = 3).
  { unfold total_force, pair_part, bonded_part, external_part. cbn [eg_y yExt yKinds yAtoms yMask yDr yFr yCutsq]. rewrite !vget_add, !vget_sum.
    unfold sum_over. cbn [map Rsum]. rewrite decide_True, (decide_False (P := 1%nat = 0%nat)) by done. unfold pair_force.
    rewrite Q0, Q1, D. destruct (Rlt_dec _ _); [|lra]. rewrite vget_sum. unfold sum_over. cbn [eg_bond fK kMols kGrp map Rsum].
    rewrite vget_sum. unfold sum_over. cbn [map Rsum gAt gTy]. fold eg_bond. rewrite FB. unfold group_force. rewrite vget_sum. unfold sum_over.
    cbn [length seq map Rsum lookup list_lookup]. rewrite decide_True, decide_False by done. cbn. lra. }
  unfold work. cbn [eg_y yAtoms]. fold eg_y. unfold sum_over. cbn [map Rsum]. rewrite decide_True, (decide_False (P := 1%nat = 0%nat)) by done.
  cbn [vget] in T0. unfold vdot. cbn [vx vy vz]. lra.
Qed.

Print Assumptions md_forces_are_gradient.
