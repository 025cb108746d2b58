(** Examples for the distribution of atoms, and what happens with full masks. *)
From Verif Require Import Base Containers Vec3 OrthoModel OrthoProps DomainModel DomainSpec DomainProps SpeciesModel SpeciesProofs SimProofs BufferModel BufferSpec BufferProofs BufferProps DistModel DistSpec DistProofs DistProps.
From Coq Require Import Reals Lra.
Local Open Scope nat_scope.

(** Two processors, side by side along the first axis. *)
Definition dims2 : vec3 Z := V3 2%Z 1%Z 1%Z.
Definition dom2 (r : Z) : domain := match domain_initialize dims2 2 r with Ok D => D | _ => Domain dims2 0 dims2 (fun _ _ => 0%Z) (fun _ _ => 0%Z) (fun _ _ => 0%Z) end.
Lemma dims2_ok : grid_ok dims2 /\ domains_of dims2 [dom2 0; dom2 1].
Proof.
  split; [unfold grid_ok; cbn; lia|]. split; [done|]. intros [|[|r]] D; cbn; intros [= <-]; reflexivity.
Qed.
Definition left_at (id : Z) : patom := PA id (V3 (1/4) (1/4) (1/4))%R 3 [].
Definition right_at (id : Z) : patom := PA id (V3 (3/4) (1/4) (1/4))%R 3 [].
(** An atom beyond the lower boundary: it belongs to the second processor. *)
Definition out_at (id : Z) : patom := PA id (V3 (-1/4) (1/4) (1/4))%R 0 [].

Definition buf1 : buffer := match bf_allocate false 1 1 (fun _ => 0%Z) (fun _ => 0%Z) with Ok b => b | _ => BF 0 0 0 0 [] None None 0 0 [] 0 0 0 0 end.
Lemma buf1_ok : buffer_state false buf1.
Proof. apply (BS_allocate false 1 1 (fun _ => 0%Z) (fun _ => 0%Z)). reflexivity. Qed.


Definition posL : vec3 R := V3 (1/4)%R (1/4)%R (1/4)%R.
Definition posR : vec3 R := V3 (3/4)%R (1/4)%R (1/4)%R.
Lemma in_left : isInDomain (dom2 0) posL = true /\ isInDomain (dom2 0) posR = false /\
  isInDomain (dom2 1) posL = false /\ isInDomain (dom2 1) posR = true.
Proof.
  unfold isInDomain, posL, posR. cbn [vx vy vz].
  assert (H0 : dDims (dom2 0) = dims2 /\ dCoords (dom2 0) = V3 0%Z 0%Z 0%Z) by done.
  assert (H1 : dDims (dom2 1) = dims2 /\ dCoords (dom2 1) = V3 1%Z 0%Z 0%Z) by done.
  unfold in_axis. destruct H0 as [-> ->], H1 as [-> ->]. cbn [vget vx vy vz dims2].
  repeat split; repeat (first [destruct (Rlt_dec _ _)|destruct (Rge_dec _ _)]; try (exfalso; lra)); reflexivity.
Qed.
Lemma wrap_pos : shiftGen1 posL = posL /\ shiftGen1 posR = posR /\ shiftGen1 (V3 (-1/4) (1/4) (1/4))%R = posR.
Proof.
  unfold shiftGen1, shift1_axis, posL, posR. cbn [vget vx vy vz].
  repeat split; repeat (first [destruct (Rlt_dec _ _)|destruct (Rge_dec _ _)]; try (exfalso; lra)); try reflexivity. f_equal. lra.
Qed.

(** Five atoms, any capacity of the cache, blocks of one atom. *)
Definition five : list patom := [left_at 0; out_at 1; right_at 2; right_at 3; left_at 4].
Definition empty2 : list pstore := [PS 5 5 []; PS 3 10 []].
Example five_distributable : distributable [dom2 0; dom2 1] empty2 five.
Proof.
  pose proof in_left as (L1 & L2 & L3 & L4). pose proof wrap_pos as (W1 & W2 & W3). unfold posL, posR in *.
  split.
  - intros a Ha i Hi. repeat (apply elem_of_cons in Ha as [->|Ha]); try (destruct i as [|[|[|i]]]; cbn; lra). by apply elem_of_nil in Ha.
  - cbn. repeat (apply NoDup_cons; split; [rewrite ?elem_of_cons, elem_of_nil; lia|]). constructor.
  - intros a Ha. repeat (apply elem_of_cons in Ha as [->|Ha]); try (cbn; lia). by apply elem_of_nil in Ha.
  - done.
  - assert (Hid : forall t, 5 <= t -> forall a, a ∈ five -> (0 <= tId a < Z.of_nat t)%Z).
    { intros t Ht a Ha. repeat (apply elem_of_cons in Ha as [->|Ha]); try (cbn; lia). by apply elem_of_nil in Ha. }
    intros [|[|r]] D s; cbn; intros [= <-] [= <-]; (split; [done|]); (split; [|apply Hid; cbn; lia]); cbn;
      unfold atoms_of, five, wrapped, left_at, right_at, out_at; cbn [map tPos tId tMask tRest]; rewrite ?W1, ?W2, ?W3;
      cbn [List.filter tPos]; rewrite ?L1, ?L2, ?L3, ?L4; cbn; lia.
Qed.
Example five_delivered (c : Z) (m : nat -> patom) (s : pstore) : exists d',
  distribute false buf1 [dom2 0; dom2 1] (dist_new buf1 2 c m s) empty2 five =
  Ok (Some (d', [PS 5 5 [left_at 0; left_at 4]; PS 3 10 [PA 1 posR 0 []; right_at 2; right_at 3]], 5)).
Proof.
  destruct dims2_ok as [Hg HD].
  destruct (distributor_delivers false buf1 dims2 [dom2 0; dom2 1] (dist_new buf1 2 c m s) empty2 five Hg buf1_ok HD
    (us_new _ _ _ _ c m s) five_distributable) as (d' & ss' & HE & Hl & HS).
  exists d'. rewrite HE. do 3 f_equal. destruct ss' as [|[c0 t0 a0] [|[c1 t1 a1] [|]]]; try done.
  destruct (HS 0 _ _ _ eq_refl eq_refl eq_refl) as (E1 & E2 & E3). destruct (HS 1 _ _ _ eq_refl eq_refl eq_refl) as (F1 & F2 & F3).
  cbn [psCap psTotal psAtoms] in *. subst.
  pose proof in_left as (L1 & L2 & L3 & L4). pose proof wrap_pos as (W1 & W2 & W3). unfold posL, posR in *.
  unfold atoms_of, five, wrapped, left_at, right_at, out_at. cbn [map tPos tId tMask tRest]. rewrite W1, W2, W3.
  cbn [List.filter tPos]. rewrite L1, L2, L3, L4. reflexivity.
Qed.

(** ** Refuted for full masks *)
(** The send capacity is atomCapacity() of the buffer, and a mask holds up to four atoms: a full block of such atoms does not fit (see
    capacity_refuted), so that a distribution of one atom already ends with an exception here. *)
Lemma owner_right : ownerRank (dom2 0) posR = Ok 1%Z.
Proof.
  destruct dims2_ok as [Hg HD].
  destruct (owner_fact dims2 [dom2 0; dom2 1] (PA 0 posR 0 []) Hg HD) as (r & Hr & HO).
  { unfold in_cell, posR. cbn. lra. }
  destruct (HO 1 _ eq_refl) as (_ & HB & _). unfold mineD in HB. cbn in HB. rewrite (proj2 (proj2 (proj2 in_left))) in HB.
  destruct (HO 0 _ eq_refl) as (HA & _). cbn [tPos] in HA. rewrite HA. symmetry in HB. apply bool_decide_eq_true in HB. by subst r.
Qed.
Theorem dist_full_masks_refuted : exists (b : buffer) (d : distr) (a : patom) (ss : list pstore),
  buffer_state false b /\ usable false b dims2 [dom2 0; dom2 1] d /\ tMask a = 4 /\
  (forall i, i < 3 -> (0 <= vget (tPos a) i < 1)%R) /\ tId a = 0%Z /\ ss = [PS 5 5 []; PS 5 5 []] /\
  distribute false b [dom2 0; dom2 1] d ss [a] = Throw.
Proof.
  exists buf1, (dist_new buf1 2 0 (fun _ => PA 0 posL 0 []) (PS 5 5 [])), (PA 0 posR 4 []), [PS 5 5 []; PS 5 5 []].
  split; [apply buf1_ok|]. split; [apply us_new|]. split; [done|]. split.
  { intros [|[|[|i]]] Hi; cbn; lra || lia. }
  split; [done|]. split; [done|].
  unfold distribute, dist_master.
  assert (H0 : dist_setup (dist_new buf1 2 0 (fun _ => PA 0 posL 0 []) (PS 5 5 [])) (PS 5 5 []) =
    Ok (Dist 2 1 2 [PA 0 posL 0 []; PA 0 posL 0 []] [0; 1] [[None]; [None]] [0; 0] 0 0 0 None [] [] (PS 5 5 []))) by reflexivity.
  rewrite H0. cbn [obind foldM].
  assert (H1 : dist_newAtomPtr false buf1 (Dist 2 1 2 [PA 0 posL 0 []; PA 0 posL 0 []] [0; 1] [[None]; [None]] [0; 0] 0 0 0 None [] [] (PS 5 5 [])) =
    Ok (Dist 2 1 2 [PA (-1) posL 0 []; PA 0 posL 0 []] [1] [[None]; [None]] [0; 0] 0 0 0 (Some 0) [] [] (PS 5 5 []))) by reflexivity.
  rewrite H1. cbn [obind]. unfold dist_write. rec. cbn [aset]. unfold aset at 1. cbn [length]. rewrite decide_True by lia. cbn [obind insert list_insert]. rec.
  unfold dist_addAtom. rec. cbn [aget lookup list_lookup]. unfold aget at 1. cbn [lookup list_lookup obind tPos tId tMask tRest].
  unfold aset at 1. cbn [length]. rewrite decide_True by lia. cbn [obind insert list_insert].
  rewrite (proj1 (proj2 wrap_pos)), owner_right. cbn [obind]. reflexivity.
Qed.
Print Assumptions dist_full_masks_refuted.
