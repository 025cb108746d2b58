(** The forces computed by MdSystem::calculateForces. *)
From stdpp Require Import gmap.
From Verif Require Import Base Vec3 BoxSpec OrthoModel OrthoSpec OrthoProofs OrthoProps MonoModel MonoSpec MonoProofs MonoProps.
From Verif Require Import McCellModel DomainModel DomainProofs SpeciesModel SpeciesProofs.
From Verif Require Import CellListModel CellListSpec CellListProofs CellListProps PairListModel PairListSpec PairListProofs PairListProps.
From Verif Require Import EnergyModel EnergySpec EnergyProofs MoveModel MoveSpec MoveProofs EnergyProps MdModel MdSpec MdProofs.
From Coq Require Import Reals Lra.
Local Open Scope R_scope.

(** ** Boundaries *)
Lemma ortho_dr_sym b r q : a_box b -> distanceSq_dr b q r = ((distanceSq_dr b r q).1, vscale (-1) (distanceSq_dr b r q).2).
Proof.
  intros Hb. destruct (owf_a_box b Hb) as (l & lat & W). unfold distanceSq_dr. rewrite !(sep_eq b l lat _ _ _ W) by lia.
  assert (forall i, (i < 3)%nat -> (sep_axis (vget l i / 2) (vget l i) (vget q i) (vget r i)).1 =
            - (sep_axis (vget l i / 2) (vget l i) (vget r i) (vget q i)).1) as E.
  { intros i Hi. by destruct (sep_axis_sym (vget l i) (vget r i) (vget q i) (pos3_get l i (w_pos _ _ _ W) )) as [H _]. }
  rewrite !E by lia. unfold vscale. cbn [fst snd vx vy vz]. f_equal; [ring|]. f_equal; ring.
Qed.
Lemma mono_dr_sym b r q : a_mbox b -> mono_distanceSq_dr b q r = ((mono_distanceSq_dr b r q).1, vscale (-1) (mono_distanceSq_dr b r q).2).
Proof.
  intros Hb. destruct (mwf_a_mbox b Hb) as (l & d & W). unfold mono_distanceSq_dr. rewrite !(mono_sep_axes b l d _ _ W).
  cbv zeta. destruct (m_pos _ _ _ W) as (X & Y & Z).
  destruct (sep_axis_sym (vx l) (vx r) (vx q) X) as [Ex _]. destruct (sep_axis_sym (vy l) (vy r) (vy q) Y) as [Ey Ey'].
  destruct (sep_axis_sym (vz l) (vz r - d / vy l * vy r) (vz q - d / vy l * vy q) Z) as [_ Ez].
  cbn [vx vy vz fst snd]. rewrite Ex, Ey, Ey', Ez, !opp_IZR. unfold vscale. cbn [vx vy vz]. f_equal; [ring|]. f_equal; ring.
Qed.

Section Forces.
  Context (y : mdsys) (cap A Pc : nat) (skin cut : R) (n : vec3 Z).
  Context (Ho : md_ok y cap skin cut n).

  Lemma y_boundary : a_boundary (yB y).
  Proof. destruct (mo_b _ _ _ _ _ Ho) as [(b & Hb & -> & _)|(b & Hb & -> & _)]; [left|right]; eauto. Qed.
  Lemma y_dr_sym r q : yDr y q r = ((yDr y r q).1, vscale (-1) (yDr y r q).2).
  Proof. destruct (mo_b _ _ _ _ _ Ho) as [(b & Hb & _ & ->)|(b & Hb & _ & -> & _)]; [by apply ortho_dr_sym|by apply mono_dr_sym]. Qed.
  Lemma y_dr_dist r q : (yDr y r q).1 = bDist (yB y) r q.
  Proof.
    destruct (mo_b _ _ _ _ _ Ho) as [(b & Hb & -> & ->)|(b & Hb & -> & -> & _)]; cbn [ortho_bd mono_bd bDist].
    - unfold distanceSq_dr, distanceSq. cbn [fst]. ring.
    - unfold mono_distanceSq_dr, mono_distanceSq. by destruct (mono_sep b r q).
  Qed.
  Lemma y_min : forall r q m, primary (bGen (yB y) r) -> primary (bGen (yB y) q) ->
     normSq (vadd (vsub r q) (lattice_vector (bBrav (yB y)) m)) < (cut + skin) * (cut + skin) ->
     0 <= skin -> bDist (yB y) r q < (cut + skin) * (cut + skin).
  Proof.
    pose proof (mo_cut _ _ _ _ _ Ho) as Hc. intros r q m Hr Hq Hd Hs.
    destruct (mo_b _ _ _ _ _ Ho) as [(b & Hb & E & _)|(b & Hb & E & _ & Hml)]; rewrite E in *; cbn [ortho_bd mono_bd bGen bDist bBrav] in *.
    - pose proof (ortho_distanceSq_min_image b r q Hb) as HMI.
      destruct (distanceSq_shift b r q) as [d t]. destruct (distanceSq_dr b r q) as [d' dr].
      destruct HMI as (E1 & _ & _ & _ & Hmin & _).
      + intros i Hi'. pose proof (proj2 (proj2 (proj2 (ortho_transforms_inverse b Hb)))) as Hbox.
        destruct Hbox as [_ Hbox]. pose proof (proj2 (Hbox r) Hr i Hi'). pose proof (proj2 (Hbox q) Hq i Hi').
        unfold Rabs. destruct (Rcase_abs _); lra.
      + specialize (Hmin m). rewrite <- E1. lra.
    - pose proof (mono_distanceSq_image_partial b r q Hb) as HMI.
      destruct (mono_distanceSq_shift b r q) as [d2 t]. destruct (mono_distanceSq_dr b r q) as [d' dr].
      destruct HMI as (E1 & _ & _ & _ & _ & _ & Hmin).
      + intros i Hi'. pose proof (Hr i Hi'). pose proof (Hq i Hi'). unfold Rabs. destruct (Rcase_abs _); lra.
      + destruct (Hmin m) as [E' _]; [nra|]. rewrite <- E1, E'. done.
  Qed.
  Lemma y_wrap r : near_cell_of (bBrav (yB y)) r -> near_cell_of (bBrav (yB y)) (bWrap (yB y) r) /\
    exists m, bWrap (yB y) r = vadd r (lattice_vector (bBrav (yB y)) m).
  Proof.
    destruct (mo_b _ _ _ _ _ Ho) as [(b & Hb & -> & _)|(b & Hb & -> & _)]; cbn [ortho_bd mono_bd bBrav bWrap]; intros Hr.
    - destruct (OrthoModel.shift b r (V3 0 0 0)%Z) as [r' s'] eqn:Es.
      destruct (ortho_shift_wraps b _ _ _ _ Hb (near_ortho b r Hb Hr) Es) as (Hin & E & _ & -> & _).
      destruct (owf_a_box b Hb) as (l & lat & W). rewrite (w_brav _ _ _ W). unfold in_box in Hin. rewrite (w_len _ _ _ W) in E, Hin. split.
      + exists (V3 (vx r' / vx l) (vy r' / vy l) (vz r' / vz l)). destruct (w_pos _ _ _ W) as (X & Y & Z). split.
        * destruct r' as [x1 y1 z1]. unfold combo, vadd, vscale, diag. cbn. f_equal; field; lra.
        * assert (HH : forall x L, 0 < L -> 0 <= x < L -> -1 <= x / L < 2).
          { intros x L HL Hx. split; [apply Rle_trans with 0; [lra|apply Rle_mult_inv_pos; lra]|]. apply Rmult_lt_reg_r with L; [done|].
            unfold Rdiv. rewrite Rmult_assoc, Rinv_l by lra. lra. }
          intros i Hi. specialize (Hin i Hi). destruct i as [|[|[|]]]; try lia; cbn [vget vx vy vz] in *; by apply HH.
      + exists (V3 (- vx s') (- vy s') (- vz s'))%Z. apply vec3_ext. intros i Hi. rewrite vget_add, lattice_diag, (E i Hi) by done.
        destruct s' as [a b' c]. destruct i as [|[|[|]]]; try lia; cbn [vget vx vy vz]; rewrite minus_IZR, opp_IZR; ring.
    - destruct (mono_shift b r (V3 0 0 0)%Z) as [r' s'] eqn:Es.
      destruct (mono_shift_wraps b _ _ _ _ Hb Hr Es) as (Hin & E & _ & -> & _). split.
      + destruct Hin as (g & Eg & Hg). exists g. split; [done|]. intros i Hi. specialize (Hg i Hi). lra.
      + exists (V3 (- vx s') (- vy s') (- vz s'))%Z. rewrite E.
        apply vget_eq. intros i. unfold lattice_vector, combo. rewrite !vget_add, !vget_scale. destruct s' as [s1 s2 s3]. unfold vmap. cbn [vx vy vz].
        rewrite !minus_IZR, !opp_IZR. ring.
  Qed.

  (** The list holds every close pair once. *)
  Definition lists_near (p : plist) (pos : nat -> vec3 R) (l : list (nat * nat)) : Prop :=
    NoDup l /\ (forall x, x ∈ l -> x.1 ∈ yAtoms y /\ x.2 ∈ yAtoms y /\ (x.1 < x.2)%nat /\ yMask y x.1 x.2 = false) /\
    (forall i j, i ∈ yAtoms y -> j ∈ yAtoms y -> (i < j)%nat -> yMask y i j = false -> (i, j) ∉ l -> cut * cut <= bDist (yB y) (pos i) (pos j)) /\
    it_loop (S (Z.to_nat (pN2 p))) (pl_begin p) = Ok (Some (map (fun x => (Some x.1, Some x.2)) l)).

  Lemma built_facts p : list_built y cap A Pc skin cut p -> pl_state (yM y) cap A Pc skin cut p /\
    (forall new, exists c : bool, pl_isCurrent (bDist (yB y)) new p = Ok c /\ (c = true -> exists l, lists_near p new l)).
  Proof.
    intros (p0 & pos0 & pos1 & Hst & Hnear & Href). pose proof (refresh_state _ _ _ _ _ _ _ _ _ _ _ _ _ _ _ _ Hst Href) as Hst'.
    split; [done|]. destruct (boundary_facts _ y_boundary) as [F1 F2 F3 F4 F6 F5]. pose proof (mo_cut _ _ _ _ _ Ho) as Hc.
    assert (Hat' : forall a, a ∈ yAtoms y -> (a < cap)%nat /\ primary (bGen (yB y) (bWrap (yB y) (pos0 a)))).
    { intros a Ha. split; [by apply (mo_cap _ _ _ _ _ Ho)|]. by apply F5, Hnear. }
    pose proof (state_stok (yM y) cap A Pc skin cut p0 ltac:(lra) Hst) as [_ _ _ _ Hs0 _].
    pose proof (mo_grid _ _ _ _ _ Ho) as HG. pose proof (mo_nodup _ _ _ _ _ Ho) as Hnd.
    destruct (builds_general (yM y) cap A Pc _ _ _ _ (bBrav (yB y)) (yMask y) skin cut n (yAtoms y) pos0 p0 ltac:(lra) F1 F2 F3 Hst HG Hnd Hat')
      as [(pos1' & p1 & l & E & Hp & [Hndl Hcl] & Hv & _)|[E _]]; rewrite Href in E; [|done]. injection E as <- <-.
    destruct (pair_iterator_correct _ _ _ _ _ _ _ (Rlt_le _ _ Hc) Hst') as (Hn2 & Hit & _).
    intros new.
    destruct (current_general (yM y) cap A Pc (bGen (yB y)) _ (bWrap (yB y)) (bLens (yB y)) (bBrav (yB y)) (yMask y) skin cut n (yAtoms y) pos0 p0 pos1 p
      ltac:(lra) F1 F2 F3 Hst HG Hnd Hat' ltac:(intros r q m H1 H2 H3; apply (y_min r q m H1 H2 H3); lra) Href new) as (c & Hcur & _ & Hsafe).
    exists c. split; [done|]. intros Hct. exists l.
    assert (stored p = map (fun x => (Some x.1, Some x.2)) l) as Est.
    { set (k := S (length (stored p) + length l)). pose proof (Hit k ltac:(lia)) as E1. rewrite (Hv k ltac:(lia)) in E1. by injection E1. }
    split; [done|]. split.
    { intros x Hx. apply Hcl in Hx as (? & ? & ? & ? & _). done. }
    split.
    { intros i j Hi Hj Hlt Hm Hn. destruct (Rle_lt_dec (cut * cut) (bDist (yB y) (new i) (new j))) as [|Hd]; [done|]. exfalso.
      destruct (F3 (new i) (new j)) as [m Em]. rewrite Em in Hd. specialize (Hsafe Hct i j m Hi Hj Hlt Hm Hd). apply Hn.
      rewrite Est in Hsafe. apply elem_of_list_fmap in Hsafe as ([i' j'] & [= -> ->] & Hin). done. }
    rewrite Hit by lia. by rewrite Est.
  Qed.

  (** What "rebuild the list if it is not current" does. *)
  Lemma md_list_spec p new pos2 p2 : list_built y cap A Pc skin cut p -> nearby y new -> md_list y new p = Ok (pos2, p2) ->
    list_built y cap A Pc skin cut p2 /\ nearby y pos2 /\ same_images (bBrav (yB y)) (yAtoms y) new pos2 /\
    pl_isCurrent (bDist (yB y)) pos2 p2 = Ok true.
  Proof.
    intros Hb Hn. unfold md_list, md_update. destruct (built_facts p Hb) as [Hst Hf]. destruct (Hf new) as (c & Hc & _). rewrite Hc. cbn [obind].
    destruct c.
    - intros [= <- <-]. split; [done|]. split; [done|]. split; [apply same_refl|done].
    - intros Href.
      assert (Hb2 : list_built y cap A Pc skin cut p2) by (exists p, new, pos2; done). split; [done|].
      destruct (boundary_facts _ y_boundary) as [F1 F2 F3 F4 F6 F5]. pose proof (mo_cut _ _ _ _ _ Ho) as Hc0.
      assert (Hat' : forall a, a ∈ yAtoms y -> (a < cap)%nat /\ primary (bGen (yB y) (bWrap (yB y) (new a)))).
      { intros a Ha. split; [by apply (mo_cap _ _ _ _ _ Ho)|]. by apply F5, Hn. }
      pose proof (mo_grid _ _ _ _ _ Ho) as HG. pose proof (mo_nodup _ _ _ _ _ Ho) as Hnd.
      destruct (builds_general (yM y) cap A Pc _ _ _ _ (bBrav (yB y)) (yMask y) skin cut n (yAtoms y) new p ltac:(lra) F1 F2 F3 Hst HG Hnd Hat')
        as [(pos1' & p1 & l & E & Hp & _)|[E _]]; rewrite Href in E; [|done]. injection E as <- <-.
      pose proof (state_stok (yM y) cap A Pc skin cut p ltac:(lra) Hst) as [_ _ _ _ Hs0 _].
      split; [|split].
      + intros a Ha. rewrite Hp, decide_True by done. by apply y_wrap, Hn.
      + intros a Ha. rewrite Hp, decide_True by done. by apply y_wrap, Hn.
      + destruct (current_general (yM y) cap A Pc (bGen (yB y)) _ (bWrap (yB y)) (bLens (yB y)) (bBrav (yB y)) (yMask y) skin cut n (yAtoms y) new p pos2 p2
          ltac:(lra) F1 F2 F3 Hst HG Hnd Hat' ltac:(intros r q m H1 H2 H3; apply (y_min r q m H1 H2 H3); lra) Href pos2) as (c & Hcur & Hiff & _).
        rewrite Hcur. f_equal. apply Hiff. intros a _. rewrite F6. nra.
  Qed.
  (** It fails only if a cell or an array is full. *)
  Lemma md_list_total p new : list_built y cap A Pc skin cut p -> nearby y new ->
    (exists r, md_list y new p = Ok r) \/
    (md_list y new p = Throw /\
      (crowded (bGen (yB y)) n (yM y) (yAtoms y) (fun a => bWrap (yB y) (new a)) \/ (A < length (yAtoms y))%nat \/
       exists l, lists_close (bDist (yB y)) (yMask y) (cut + skin) (yAtoms y) (fun a => bWrap (yB y) (new a)) l /\ (Pc < length l)%nat)).
  Proof.
    intros Hb Hn. unfold md_list, md_update. destruct (built_facts p Hb) as [Hst Hf]. destruct (Hf new) as (c & Hc & _). rewrite Hc. cbn [obind].
    destruct c; [left; eauto|].
    destruct (boundary_facts _ y_boundary) as [F1 F2 F3 F4 F6 F5]. pose proof (mo_cut _ _ _ _ _ Ho) as Hc0.
    assert (Hat' : forall a, a ∈ yAtoms y -> (a < cap)%nat /\ primary (bGen (yB y) (bWrap (yB y) (new a)))).
    { intros a Ha. split; [by apply (mo_cap _ _ _ _ _ Ho)|]. by apply F5, Hn. }
    destruct (builds_general (yM y) cap A Pc _ _ _ _ (bBrav (yB y)) (yMask y) skin cut n (yAtoms y) new p ltac:(lra) F1 F2 F3 Hst
      (mo_grid _ _ _ _ _ Ho) (mo_nodup _ _ _ _ _ Ho) Hat') as [(pos1' & p1 & l & E & _)|[E H]]; [left; eauto|right; eauto].
  Qed.

  (** ** The loop over pairs *)
  Lemma scatter_get F i j f a k : vget (scatter F i j f a) k = vget (F a) k + ((if decide (i = a) then vget f k else 0) - (if decide (j = a) then vget f k else 0)).
  Proof.
    unfold scatter, move. destruct (decide (a = j)) as [->|Hj].
    - rewrite (decide_True (P := j = j)) by done. destruct (decide (j = i)) as [->|Hi].
      + rewrite (decide_True (P := i = i)) by done. rewrite vget_sub, vget_add. ring.
      + rewrite (decide_False (P := i = j)) by congruence. rewrite vget_sub. ring.
    - rewrite (decide_False (P := j = a)) by congruence. destruct (decide (a = i)) as [->|Hi].
      + rewrite (decide_True (P := i = i)) by done. rewrite vget_add. ring.
      + rewrite (decide_False (P := i = a)) by congruence. ring.
  Qed.
  Definition pf (pos : nat -> vec3 R) (i j : nat) : vec3 R := pair_force (yDr y) (yFr y) (yCutsq y) (pos i) (pos j) (yTy y i) (yTy y j).
  Lemma pf_opp pos i j : pf pos j i = vscale (-1) (pf pos i j).
  Proof.
    unfold pf, pair_force. rewrite (y_dr_sym (pos i) (pos j)). destruct (yDr y (pos i) (pos j)) as [rsq d]. cbn [fst snd].
    destruct (mo_sym _ _ _ _ _ Ho rsq (yTy y i) (yTy y j)) as [E1 E2]. rewrite <- E1, <- E2.
    destruct (Rlt_dec _ _); apply vget_eq; intros k; rewrite ?vget_scale, ?vget_zero; ring.
  Qed.
  Lemma loop_get pos F (l : list (nat * nat)) :
    exists F', foldM (fun F x => match x with
                       | (Some i, Some j) =>
                           let (rsq, d) := yDr y (pos i) (pos j) in
                           if Rlt_dec rsq (yCutsq y (yTy y i) (yTy y j)) then Ok (scatter F i j (vscale (yFr y rsq (yTy y i) (yTy y j)) d))
                           else Ok F
                       | _ => UB
                       end) F (map (fun x : nat * nat => (Some x.1, Some x.2)) l) = Ok F' /\
      forall a k, vget (F' a) k = vget (F a) k + sum_over l (fun x => (if decide (x.1 = a) then vget (pf pos x.1 x.2) k else 0) - (if decide (x.2 = a) then vget (pf pos x.1 x.2) k else 0)).
  Proof.
    revert F. induction l as [|[i j] l IH]; intros F.
    - exists F. split; [done|]. intros a k. rewrite sum_nil. ring.
    - cbn [map fst snd foldM]. unfold pf at 1 2, pair_force. destruct (yDr y (pos i) (pos j)) as [rsq d] eqn:Ed. cbn [fst snd].
      destruct (Rlt_dec rsq (yCutsq y (yTy y i) (yTy y j))) as [H|H]; cbn [obind].
      + destruct (IH (scatter F i j (vscale (yFr y rsq (yTy y i) (yTy y j)) d))) as (F' & E & H'). exists F'. split; [done|].
        intros a k. rewrite H', scatter_get, sum_cons. cbn [fst snd]. rewrite Ed. destruct (Rlt_dec _ _); [|done]. unfold pf, pair_force. ring.
      + destruct (IH F) as (F' & E & H'). exists F'. split; [done|]. intros a k. rewrite H', sum_cons. cbn [fst snd]. rewrite Ed.
        destruct (Rlt_dec _ _); [done|]. rewrite vget_zero. unfold pf, pair_force. destruct (decide (i = a)), (decide (j = a)); ring.
  Qed.
  (** Every unmasked pair counts, whether listed or not. *)
  Lemma listed_force p pos l a k : lists_near p pos l -> a ∈ yAtoms y ->
    sum_over l (fun x => (if decide (x.1 = a) then vget (pf pos x.1 x.2) k else 0) - (if decide (x.2 = a) then vget (pf pos x.1 x.2) k else 0)) =
    vget (pair_part y pos a) k.
  Proof.
    intros (Hnd & Hin & Hcl & _) Ha.
    set (f := fun i j => (if decide (i = a) then vget (pf pos i j) k else 0) - (if decide (j = a) then vget (pf pos i j) k else 0)).
    transitivity (sum_over l (fun x => f x.1 x.2)); [done|].
    rewrite (list_pairs (yAtoms y) (yMask y) l f (mo_nodup _ _ _ _ _ Ho) Hnd Hin).
    2:{ intros i j Hi Hj Hlt Hm Hn. specialize (Hcl i j Hi Hj Hlt Hm Hn). unfold f, pf, pair_force. rewrite <- y_dr_dist in Hcl.
        destruct (yDr y (pos i) (pos j)) as [rsq d]. cbn [fst] in Hcl. pose proof (mo_cutsq _ _ _ _ _ Ho (yTy y i) (yTy y j)).
        destruct (Rlt_dec _ _); [lra|]. rewrite vget_zero. destruct (decide _), (decide _); ring. }
    assert (Hs : forall i j, (if yMask y i j then 0 else f i j) = (if yMask y j i then 0 else f j i)).
    { intros i j. rewrite (mo_mask _ _ _ _ _ Ho i j). destruct (yMask y j i); [done|]. unfold f. rewrite (pf_opp pos i j), vget_scale.
      destruct (decide (i = a)), (decide (j = a)); ring. }
    rewrite (half_split (yAtoms y) (mo_nodup _ _ _ _ _ Ho) (fun i j => if yMask y i j then 0 else f i j) [a] Hs); [|apply NoDup_singleton|by intros x ->%elem_of_list_singleton].
    rewrite touching_one. rewrite (half_ext _ _ (fun _ _ => 0)).
    2:{ intros i j _ _ Hij. destruct (decide _) as [|Hn]; [done|]. rewrite !elem_of_list_singleton in Hn. destruct (yMask y i j); [done|]. unfold f.
        rewrite !decide_False by tauto. ring. }
    assert (half_pairs (yAtoms y) (fun _ _ => 0) = 0) as ->.
    { unfold half_pairs. apply sum_0. intros i _. apply sum_0. intros j _. by destruct (decide _). }
    rewrite Rplus_0_r. unfold pair_part. rewrite vget_sum. apply sum_ext. intros j _.
    destruct (decide (j = a)) as [|Hn]; [by rewrite vget_zero|]. destruct (yMask y a j); [by rewrite vget_zero|]. unfold f.
    rewrite decide_True by done. rewrite decide_False by done. unfold pf. ring.
  Qed.

  (** ** Bonded groups *)
  Lemma group_force_cons i j ats f fs a k :
    vget (group_force (i :: j :: ats) (f :: fs) a) k =
    (if decide (i = a) then vget f k else 0) - (if decide (j = a) then vget f k else 0) + vget (group_force (j :: ats) fs a) k.
  Proof.
    unfold group_force. rewrite !vget_sum. cbn [length seq]. rewrite sum_cons. f_equal.
    - rewrite vget_sub. f_equal.
      + destruct (decide (i = a)) as [->|H]; [by rewrite decide_True|]. rewrite decide_False; [apply vget_zero|]. cbn. congruence.
      + destruct (decide (j = a)) as [->|H]; [by rewrite decide_True|]. rewrite decide_False; [apply vget_zero|]. cbn. congruence.
    - rewrite <- seq_shift, sum_map. done.
  Qed.
  Lemma group_force_nil ats fs a k : (length ats <= 1)%nat -> vget (group_force ats fs a) k = sum_over (seq 0 (length fs)) (fun m =>
      if decide (ats !! m = Some a) then vget (default (V3 0 0 0) (fs !! m)) k else 0).
  Proof.
    intros Hl. unfold group_force. rewrite vget_sum. apply sum_ext. intros m _. rewrite vget_sub.
    rewrite (decide_False (P := ats !! S m = Some a)) by (rewrite lookup_ge_None_2 by lia; done). rewrite vget_zero.
    destruct (decide _); rewrite ?vget_zero; ring.
  Qed.
  Lemma chain_get ats fs F a k : S (length fs) = length ats ->
    vget (chain_scatter F ats fs a) k = vget (F a) k + vget (group_force ats fs a) k.
  Proof.
    revert fs F. induction ats as [|i ats IH]; intros fs F Hl; [done|]. cbn [length] in Hl.
    destruct fs as [|f fs].
    - cbn [length] in Hl. destruct ats as [|]; [|done]. rewrite group_force_nil by (cbn; lia). cbn [length seq]. rewrite sum_nil. cbn [chain_scatter]. ring.
    - destruct ats as [|j ats]; [done|]. cbn [length] in Hl.
      change (chain_scatter F (i :: j :: ats) (f :: fs)) with (chain_scatter (scatter F i j f) (j :: ats) fs).
      rewrite IH by (cbn [length]; lia). rewrite scatter_get, group_force_cons. ring.
  Qed.
  Lemma groups_get pos k a c gs F : (forall g, g ∈ gs -> S (length (fF k (map pos (gAt g)) (gTy g))) = length (gAt g)) ->
    vget (fold_left (fun F g => chain_scatter F (gAt g) (fF k (map pos (gAt g)) (gTy g))) gs F a) c =
    vget (F a) c + sum_over gs (fun g => vget (group_force (gAt g) (fF k (map pos (gAt g)) (gTy g)) a) c).
  Proof.
    revert F. induction gs as [|g gs IH]; intros F Hg; cbn [fold_left]; [rewrite sum_nil; ring|].
    rewrite IH by (intros; apply Hg; by right). rewrite chain_get by (apply Hg; left). rewrite sum_cons. ring.
  Qed.
  Lemma kinds_get pos F a c : groups_ok y ->
    vget (fold_left (kind_forces pos) (yKinds y) F a) c = vget (F a) c + vget (bonded_part y pos a) c.
  Proof.
    intros Hg. unfold bonded_part. rewrite vget_sum. unfold groups_ok in Hg. revert F Hg. generalize (yKinds y). intros ks.
    induction ks as [|k ks IH]; intros F Hg; cbn [fold_left]; [rewrite sum_nil; ring|].
    rewrite IH by (intros k' m g Hk; apply Hg; by right). rewrite sum_cons, vget_sum.
    assert (vget (kind_forces pos F k a) c = vget (F a) c + sum_over (kMols (fK k)) (fun m => vget (vsum_over (kGrp (fK k) m) (fun g =>
        group_force (gAt g) (fF k (map pos (gAt g)) (gTy g)) a)) c)) as ->; [|ring].
    specialize (fun m g => Hg k m g (elem_of_list_here _ _)). unfold kind_forces. clear IH. revert F Hg. generalize (kMols (fK k)). intros ms.
    induction ms as [|m ms IH]; intros F Hg; cbn [fold_left]; [rewrite sum_nil; ring|].
    rewrite IH by (intros m' g Hm; apply Hg; by right). rewrite groups_get, sum_cons, vget_sum; [ring|].
    intros g Hin. by apply (Hg m g); [left|].
  Qed.

  (** ** All forces *)
  Lemma md_calc_spec p pos F pos2 F2 p2 : groups_ok y -> list_built y cap A Pc skin cut p -> nearby y pos ->
    md_calc y pos F p = Ok (pos2, F2, p2) ->
    list_built y cap A Pc skin cut p2 /\ nearby y pos2 /\ same_images (bBrav (yB y)) (yAtoms y) pos pos2 /\
    pl_isCurrent (bDist (yB y)) pos2 p2 = Ok true /\
    forall a, a ∈ yAtoms y -> F2 a = total_force y pos2 a.
  Proof.
    intros Hg Hb Hn. unfold md_calc. intros ([pos1 p1] & Hl & H)%obind_Ok.
    destruct (md_list_spec p pos pos1 p1 Hb Hn Hl) as (Hb1 & Hn1 & Hs & Hcur).
    destruct (built_facts p1 Hb1) as [_ Hf]. destruct (Hf pos1) as (c & Hc & Hl'). rewrite Hcur in Hc. injection Hc as <-.
    destruct (Hl' eq_refl) as (l & Hln). pose proof Hln as (_ & _ & _ & Hit).
    unfold md_pair_forces in H. rewrite Hit in H. cbn [obind] in H.
    destruct (loop_get pos1 (zero_forces (yAtoms y) F) l) as (F1 & HF1 & HG). rewrite HF1 in H. cbn [obind] in H. injection H as <- <- <-.
    split; [done|]. split; [done|]. split; [done|]. split; [done|]. intros a Ha.
    apply vget_eq. intros k. unfold total_force, external_part. rewrite !vget_add.
    assert (forall G, G = fold_left (kind_forces pos1) (yKinds y) F1 -> vget (G a) k = vget (pair_part y pos1 a) k + vget (bonded_part y pos1 a) k) as E.
    { intros G ->. rewrite kinds_get by done. rewrite HG, zero_forces_spec, decide_True by done.
      rewrite (listed_force p1 pos1 l a k Hln Ha), vget_zero. ring. }
    destruct (yExt y) as [f|]; [|rewrite (E _ eq_refl), vget_zero; ring].
    rewrite ext_forces_spec by apply (mo_nodup _ _ _ _ _ Ho). rewrite decide_True by done. rewrite vget_add, (E _ eq_refl). ring.
  Qed.
  Lemma md_calc_total p pos F : groups_ok y -> list_built y cap A Pc skin cut p -> nearby y pos ->
    (exists r, md_list y pos p = Ok r) -> exists r, md_calc y pos F p = Ok r.
  Proof.
    intros Hg Hb Hn ([pos1 p1] & Hl). unfold md_calc. rewrite Hl. cbn [obind].
    destruct (md_list_spec p pos pos1 p1 Hb Hn Hl) as (Hb1 & Hn1 & Hs & Hcur).
    destruct (built_facts p1 Hb1) as [_ Hf]. destruct (Hf pos1) as (c & Hc & Hl'). rewrite Hcur in Hc. injection Hc as <-.
    destruct (Hl' eq_refl) as (l & Hln). pose proof Hln as (_ & _ & _ & Hit).
    unfold md_pair_forces. rewrite Hit. cbn [obind].
    destruct (loop_get pos1 (zero_forces (yAtoms y) F) l) as (F1 & HF1 & HG). rewrite HF1. cbn [obind]. eauto.
  Qed.

  (** ** Newton's third law *)
  Lemma indicator_sum (l : list nat) i x : NoDup l -> i ∈ l -> sum_over l (fun a => if decide (i = a) then x else 0) = x.
  Proof.
    intros Hl Hi. rewrite (sum_one _ l i Hl Hi); [by rewrite decide_True|]. intros a _ Hn. by rewrite decide_False by congruence.
  Qed.
  Lemma group_force_total ats fs (l : list nat) c : NoDup l -> ats ⊆ l -> S (length fs) = length ats ->
    sum_over l (fun a => vget (group_force ats fs a) c) = 0.
  Proof.
    intros Hl. revert fs. induction ats as [|i ats IH]; intros fs Hsub Hlen; [done|]. cbn [length] in Hlen. destruct fs as [|f fs].
    - cbn in Hlen. destruct ats; [|done]. apply sum_0. intros a _. rewrite group_force_nil by (cbn; lia). done.
    - destruct ats as [|j ats]; [done|]. cbn [length] in Hlen.
      rewrite (sum_ext _ (fun a => ((if decide (i = a) then vget f c else 0) - (if decide (j = a) then vget f c else 0)) + vget (group_force (j :: ats) fs a) c)).
      2:{ intros a _. apply group_force_cons. }
      rewrite EnergyProofs.sum_plus, EnergyProofs.sum_minus, !indicator_sum, IH; [ring| |cbn [length]; lia|done| |done|].
      + intros x Hx. apply Hsub. by right.
      + apply Hsub. right. left.
      + apply Hsub. left.
  Qed.
  Lemma pair_part_total pos c : sum_over (yAtoms y) (fun a => vget (pair_part y pos a) c) = 0.
  Proof.
    set (g := fun a j => vget (if decide (j = a) then V3 0 0 0 else if yMask y a j then V3 0 0 0 else pf pos a j) c).
    assert (E : sum_over (yAtoms y) (fun a => vget (pair_part y pos a) c) = sum_over (yAtoms y) (fun a => sum_over (yAtoms y) (g a))).
    { apply sum_ext. intros a _. unfold pair_part. by rewrite vget_sum. }
    assert (E' : sum_over (yAtoms y) (fun a => sum_over (yAtoms y) (g a)) = - sum_over (yAtoms y) (fun a => sum_over (yAtoms y) (g a))).
    { rewrite sum_swap at 1. replace (- sum_over (yAtoms y) (fun a => sum_over (yAtoms y) (g a))) with
        ((-1) * sum_over (yAtoms y) (fun a => sum_over (yAtoms y) (g a))) by ring. rewrite <- sum_scale. apply sum_ext. intros a _.
      rewrite <- sum_scale. apply sum_ext. intros j _. unfold g. destruct (decide (j = a)) as [->|Hn]; [rewrite decide_True by done; rewrite vget_zero; ring|].
      rewrite decide_False by congruence. rewrite (mo_mask _ _ _ _ _ Ho a j). destruct (yMask y j a); [rewrite vget_zero; ring|].
      rewrite (pf_opp pos a j), vget_scale. ring. }
    rewrite E. lra.
  Qed.
  Lemma total_force_balanced pos : groups_ok y -> yExt y = None -> balanced y (total_force y pos).
  Proof.
    intros Hg He. apply vget_eq. intros c. rewrite vget_sum, vget_zero. unfold total_force, external_part. rewrite He.
    rewrite (sum_ext _ (fun a => vget (pair_part y pos a) c + vget (bonded_part y pos a) c)).
    2:{ intros a _. rewrite !vget_add, vget_zero. ring. }
    rewrite EnergyProofs.sum_plus, pair_part_total. unfold bonded_part.
    rewrite (sum_ext _ (fun a => sum_over (yKinds y) (fun k => sum_over (kMols (fK k)) (fun m => sum_over (kGrp (fK k) m) (fun g =>
      vget (group_force (gAt g) (fF k (map pos (gAt g)) (gTy g)) a) c))))).
    2:{ intros a _. rewrite vget_sum. apply sum_ext. intros k _. rewrite vget_sum. apply sum_ext. intros m _. apply vget_sum. }
    rewrite sum_swap, sum_0; [ring|]. intros k Hk. rewrite sum_swap, sum_0; [done|]. intros m Hm. rewrite sum_swap, sum_0; [done|]. intros g Hin.
    destruct (Hg k m g Hk Hm Hin) as [H1 H2]. apply group_force_total; [apply (mo_nodup _ _ _ _ _ Ho)|done|apply H2].
  Qed.
End Forces.
