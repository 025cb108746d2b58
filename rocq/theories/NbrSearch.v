(** Lemmas about Cell::getNeighbors. *)
From Verif Require Import Base Vec3 BoxSpec DomainModel DomainSpec DomainProofs SpeciesModel SpeciesProofs NbrModel NbrOffsets NbrCells NbrGet.
From Coq Require Import Reals Lra.
Local Open Scope Z_scope.

Lemma first_true (P : Z -> bool) (k : nat) : forall b, P (b + Z.of_nat k) = true ->
  exists j : nat, (j <= k)%nat /\ P (b + Z.of_nat j) = true /\ forall i : nat, (i < j)%nat -> P (b + Z.of_nat i) = false.
Proof.
  induction k as [|k IH]; intros b H.
  - exists 0%nat. split; [lia|]. split; [done|]. lia.
  - destruct (P b) eqn:E.
    + exists 0%nat. split; [lia|]. split; [by rewrite Z.add_0_r|]. lia.
    + destruct (IH (b + 1)) as (j & Hj & Hp & Hi).
      { rewrite <- H. f_equal. lia. }
      exists (S j). split; [lia|]. split; [rewrite <- Hp; f_equal; lia|]. intros [|i] Hi'; [by rewrite Z.add_0_r|].
      rewrite <- (Hi i) by lia. f_equal. lia.
Qed.
Lemma filter_all {A} (P : A -> bool) l : (forall x, x ∈ l -> P x = true) -> List.filter P l = l.
Proof. induction l as [|x l IH]; intros H; simpl; [done|]. rewrite (H x) by left. f_equal. apply IH. intros. apply H. by right. Qed.
Lemma filter_none {A} (P : A -> bool) l : (forall x, x ∈ l -> P x = false) -> List.filter P l = [].
Proof. induction l as [|x l IH]; intros H; simpl; [done|]. rewrite (H x) by left. apply IH. intros. apply H. by right. Qed.
Lemma map_add_seqZ c a L : map (Z.add c) (seqZ a L) = seqZ (c + a) L.
Proof.
  unfold seqZ. rewrite map_fmap. assert (forall l : list nat, map (fun x => c + (Z.of_nat x + a)) l = (fun i : nat => Z.of_nat i + (c + a)) <$> l) as H; [|apply H].
  induction l as [|x l IH]; simpl; [done|]. f_equal; [lia|done].
Qed.

Section search.
  Context (s : dclist) (N : Z) (gf : Z -> bool) (T : list (nat * Z)).
  Hypothesis Hcells : wCells s = prepared N gf T T.
  Hypothesis Hfill : filled N T (wAtoms s).

  Lemma zget_cell c : 0 <= c < N -> zget (wCells s) c = Ok (DCell (firstC T c) (length (inC T c)) (length (inC T c)) (gf c)).
  Proof. intros H. rewrite Hcells. unfold prepared. by rewrite zget_tab. Qed.
  Lemma to_ghost_up (j : nat) : forall fuel b, (j < fuel)%nat -> 0 <= b -> b + Z.of_nat j < N ->
    (forall i : nat, (i < j)%nat -> gf (b + Z.of_nat i) = false) -> gf (b + Z.of_nat j) = true -> to_ghost fuel s 1 b = Ok (b + Z.of_nat j).
  Proof.
    induction j as [|j IH]; intros [|fuel] b Hf Hb HN Hi Hj; try lia.
    - cbn [to_ghost]. rewrite zget_cell by lia. cbn [obind dcGhost]. rewrite Z.add_0_r in *. by rewrite Hj.
    - cbn [to_ghost]. rewrite zget_cell by lia. cbn [obind dcGhost]. pose proof (Hi 0%nat ltac:(lia)) as H0. rewrite Z.add_0_r in H0. rewrite H0.
      rewrite IH; [f_equal; lia|lia|lia|lia| |].
      + intros i Hi'. rewrite <- (Hi (S i)) by lia. f_equal. lia.
      + rewrite <- Hj. f_equal. lia.
  Qed.
  Lemma to_ghost_down (j : nat) : forall fuel e, (j < fuel)%nat -> e < N -> 0 <= e - Z.of_nat j ->
    (forall i : nat, (i < j)%nat -> gf (e - Z.of_nat i) = false) -> gf (e - Z.of_nat j) = true -> to_ghost fuel s (-1) e = Ok (e - Z.of_nat j).
  Proof.
    induction j as [|j IH]; intros [|fuel] b Hf Hb HN Hi Hj; try lia.
    - cbn [to_ghost]. rewrite zget_cell by lia. cbn [obind dcGhost]. rewrite Z.sub_0_r in *. by rewrite Hj.
    - cbn [to_ghost]. rewrite zget_cell by lia. cbn [obind dcGhost]. pose proof (Hi 0%nat ltac:(lia)) as H0. rewrite Z.sub_0_r in H0. rewrite H0.
      rewrite IH; [f_equal; lia|lia|lia|lia| |].
      + intros i Hi'. rewrite <- (Hi (S i)) by lia. f_equal. lia.
      + rewrite <- Hj. f_equal. lia.
  Qed.

  Definition appended (nb l : list nat) : outcome (list nat) := if decide (length nb + length l <= MaxNeighborAtom)%nat then Ok (nb ++ l) else Throw.
  Lemma appended_nil nb : (length nb <= MaxNeighborAtom)%nat -> appended nb [] = Ok nb.
  Proof. intros H. unfold appended. rewrite decide_True by (simpl; lia). by rewrite app_nil_r. Qed.
  (** The ghost cells of a strip. *)
  Lemma trim_spec b e nb : 0 <= b -> b <= e < N -> (length nb <= MaxNeighborAtom)%nat ->
    (forall x y z, b <= x <= y -> y <= z <= e -> gf x = true -> gf z = true -> gf y = true) ->
    (gf b = false -> gf e = false -> forall x, b <= x <= e -> gf x = false) ->
    (let? cb := zget (wCells s) b in let? ce := zget (wCells s) e in
     if (dcGhost cb || dcGhost ce : bool) then
       let? b := to_ghost (S (length (wCells s))) s 1 b in let? e := to_ghost (S (length (wCells s))) s (-1) e in nb_range s b e nb
     else Ok nb) = appended nb (flat_map (inC T) (List.filter gf (seqZ b (e - b + 1)))).
  Proof.
    intros Hb He Hnb Hconv Hends. rewrite !zget_cell by lia. cbn [obind dcGhost].
    assert (length (wCells s) = Z.to_nat N) as El by (rewrite Hcells; unfold prepared; apply tab_length).
    destruct (gf b || gf e) eqn:Eg.
    2:{ apply orb_false_iff in Eg as [E1 E2]. rewrite filter_none; [by rewrite appended_nil|].
        intros x Hx%elem_of_seqZ. apply Hends; [done|done|lia]. }
    assert (exists g, b <= g <= e /\ gf g = true) as (g & Hg & Eg').
    { apply orb_true_iff in Eg as [?|?]; [exists b|exists e]; (split; [lia|done]). }
    destruct (first_true gf (Z.to_nat (g - b)) b) as (j & Hj & Hp & Hi).
    { rewrite <- Eg'. f_equal. lia. }
    destruct (first_true (fun x => gf (e - x)) (Z.to_nat (e - g)) 0) as (j' & Hj' & Hp' & Hi').
    { rewrite <- Eg'. f_equal. lia. }
    simpl in Hp', Hi'.
    rewrite (to_ghost_up j) by (lia || done). cbn [obind]. rewrite (to_ghost_down j') by (lia || done). cbn [obind].
    rewrite (nb_range_spec N gf s T) by (lia || done).
    assert (List.filter gf (seqZ b (e - b + 1)) = seqZ (b + Z.of_nat j) (e - Z.of_nat j' - (b + Z.of_nat j) + 1)) as ->; [|done].
    replace (e - b + 1) with (Z.of_nat j + ((e - Z.of_nat j' - (b + Z.of_nat j) + 1) + Z.of_nat j')) by lia.
    rewrite seqZ_app by lia. rewrite seqZ_app by lia. rewrite !List.filter_app.
    rewrite (filter_none _ (seqZ b (Z.of_nat j))).
    2:{ intros x Hx%elem_of_seqZ. rewrite <- (Hi (Z.to_nat (x - b))) by lia. f_equal. lia. }
    rewrite (filter_all _ (seqZ (b + Z.of_nat j) _)).
    2:{ intros x Hx%elem_of_seqZ. eapply (Hconv (b + Z.of_nat j) x (e - Z.of_nat j')); [lia|lia|done|done]. }
    rewrite (filter_none _ (seqZ _ (Z.of_nat j'))); [by rewrite app_nil_r|].
    intros x Hx%elem_of_seqZ. rewrite <- (Hi' (Z.to_nat (e - x))) by lia. f_equal. lia.
  Qed.
End search.

Section neighbors.
  Context (lower upper cutoffs : vec3 R) (n : Z) (s : dclist) (T : list (nat * Z)).
  Hypothesis GS : grid_state lower upper cutoffs n s.
  Notation d := (wGrid s).
  Notation N := (grid_size d).
  Notation gf := (gflag d n).
  Notation Reach := (reach d (qvec s cutoffs) n).
  Hypothesis Hcells : wCells s = prepared N gf T T.
  Hypothesis Hfill : filled N T (wAtoms s).

  Lemma nbr_side : 1 <= n /\ n <= 4 /\ 2 * n + 1 <= vy d /\ 2 * n + 1 <= vz d /\ (0 <= vx (qvec s cutoffs) /\ 0 <= vy (qvec s cutoffs) /\ 0 <= vz (qvec s cutoffs))%R.
  Proof.
    pose proof (gs_dims _ _ _ _ _ GS). destruct GS as [Hn [] [] [] _ _ _ _ _]. repeat split; try lia; apply Rlt_le, Rdiv_lt_0_compat; done.
  Qed.
  Lemma nbr_offsets : Forall (fun st => st = (0, 0) \/ strip_good st) (wOff s) /\ flat_map expand (wOff s) = 0 :: Reach.
  Proof.
    destruct nbr_side as (P1 & P2 & P3 & P4 & P5). destruct (offsets_spec d (qvec s cutoffs) n P1 P2 P3 P4 P5) as (off & E & _ & H1 & H2).
    pose proof (gs_off _ _ _ _ _ GS) as E'. rewrite E in E'. injection E' as <-. done.
  Qed.
  Lemma reach_NoDup : NoDup (0 :: Reach).
  Proof. destruct nbr_side as (P1 & P2 & P3 & P4 & P5). by apply NoDup_reach. Qed.
  Lemma reach_cube o : o ∈ 0 :: Reach -> exists t, in_cube n t /\ o = grid_rank d t.
  Proof.
    destruct nbr_side as (P1 & P2 & P3 & P4 & P5). intros [->|H]%elem_of_cons.
    - exists (V3 0 0 0). split; [unfold in_cube; simpl; lia|]. unfold grid_rank; simpl. lia.
    - apply elem_of_reach in H as (t & Ht & _ & _ & ->). eauto.
  Qed.

  Context (p : vec3 Z).
  Hypothesis Hp : local_pos d n p.
  Notation c := (grid_rank d p).

  Lemma cell_of_offset t : in_cube n t -> 0 <= c + grid_rank d t < N /\ gf (c + grid_rank d t) = negb (bool_decide (local_pos d n (vadd3 p t))).
  Proof.
    intros Ht. rewrite <- rank_add. pose proof (near_in_grid d n p t Hp Ht) as Hin. pose proof (gs_grid_ok _ _ _ _ _ GS) as Hd.
    split; [by apply rank_range|]. unfold gflag. by rewrite position_rank.
  Qed.
  Lemma next_offset t t' : in_cube n t -> in_cube n t' -> 2 * n + 2 <= vz d -> grid_rank d t' = grid_rank d t + 1 ->
    vx t' = vx t /\ vy t' = vy t /\ vz t' = vz t + 1.
  Proof.
    destruct nbr_side as (P1 & P2 & P3 & P4 & P5). intros (H1 & H2 & H3) (H1' & H2' & H3') Hd E. unfold grid_rank in E.
    assert (vz t' - vz t - 1 + vz d * ((vy t' - vy t) + vy d * (vx t' - vx t)) = 0) as E' by nia.
    set (a := (vy t' - vy t) + vy d * (vx t' - vx t)) in *.
    assert (a = 0) as Ha. { destruct (Z.eq_dec a 0); [done|]. exfalso. assert (a <= -1 \/ 1 <= a) as [?|?] by lia; nia. }
    assert (vx t' - vx t = 0). { destruct (Z.eq_dec (vx t' - vx t) 0); [done|]. exfalso. unfold a in Ha. assert (vx t' - vx t <= -1 \/ 1 <= vx t' - vx t) as [?|?] by lia; nia. }
    nia.
  Qed.
  Lemma strip_row a b : a <= b -> (forall o, a <= o <= b -> o ∈ 0 :: Reach) -> 2 * n + 2 <= vz d ->
    exists t, in_cube n t /\ grid_rank d t = a /\ forall o, a <= o <= b -> in_cube n (V3 (vx t) (vy t) (vz t + (o - a))) /\ grid_rank d (V3 (vx t) (vy t) (vz t + (o - a))) = o.
  Proof.
    intros Hab HR Hd. destruct (reach_cube a (HR a ltac:(lia))) as (t & Ht & Ea). exists t. split; [done|]. split; [done|].
    assert (forall k : nat, a + Z.of_nat k <= b -> in_cube n (V3 (vx t) (vy t) (vz t + Z.of_nat k)) /\ grid_rank d (V3 (vx t) (vy t) (vz t + Z.of_nat k)) = a + Z.of_nat k) as H.
    { induction k as [|k IH]; intros Hk.
      - rewrite !Z.add_0_r. destruct t; simpl. done.
      - destruct IH as [I1 I2]; [lia|]. destruct (reach_cube (a + Z.of_nat (S k)) (HR (a + Z.of_nat (S k)) ltac:(lia))) as (t' & Ht' & Et').
        destruct (next_offset (V3 (vx t) (vy t) (vz t + Z.of_nat k)) t' I1 Ht' Hd ltac:(rewrite I2, <- Et'; lia)) as (X & Y & Zz). simpl in X, Y, Zz.
        assert (t' = V3 (vx t) (vy t) (vz t + Z.of_nat (S k))) as <- by (destruct t'; simpl in *; f_equal; lia). done. }
    intros o Ho. specialize (H (Z.to_nat (o - a)) ltac:(lia)). rewrite Z2Nat.id in H by lia. replace (a + (o - a)) with o in H by lia. done.
  Qed.

  Definition kept (rev : bool) (c' : Z) : bool := bool_decide (c <= c') || (negb rev && gf c').
  Definition ncells (rev : bool) : list Z := List.filter (kept rev) (map (Z.add c) (0 :: Reach)).

  Lemma strip_step rev st nb : rev = true \/ 4 * n <= vz d -> st ∈ wOff s -> (length nb <= MaxNeighborAtom)%nat ->
    (let b := c + st.1 in let e := c + st.2 in
     if decide (c <= b) then nb_range s b e nb
     else if rev then Ok nb
     else
       let? cb := zget (wCells s) b in let? ce := zget (wCells s) e in
       if (dcGhost cb || dcGhost ce : bool) then
         let? b := to_ghost (S (length (wCells s))) s 1 b in let? e := to_ghost (S (length (wCells s))) s (-1) e in nb_range s b e nb
       else Ok nb) = appended nb (flat_map (inC T) (List.filter (kept rev) (map (Z.add c) (expand st)))).
  Proof.
    intros Hmode Hst Hnb. destruct nbr_offsets as [HS HE]. cbv zeta.
    assert (st.1 <= st.2 /\ (st.2 < 0 \/ 0 <= st.1)) as [Hle Hsign].
    { rewrite Forall_forall in HS. destruct (HS st Hst) as [->|[? [?|?]]]; simpl; lia. }
    assert (forall o, st.1 <= o <= st.2 -> o ∈ 0 :: Reach) as HR.
    { intros o Ho. rewrite <- HE. apply elem_of_flat_map. exists st. split; [done|]. unfold expand. apply elem_of_seqZ. lia. }
    assert (forall o, st.1 <= o <= st.2 -> 0 <= c + o < N) as Hrange.
    { intros o Ho. destruct (reach_cube o (HR o Ho)) as (t & Ht & ->). apply cell_of_offset. done. }
    unfold expand. rewrite map_add_seqZ. pose proof (Hrange st.1 ltac:(lia)) as R1. pose proof (Hrange st.2 ltac:(lia)) as R2.
    destruct (decide (c <= c + st.1)) as [Hpos|Hneg].
    - rewrite (nb_range_spec N gf s T) by (lia || done). rewrite filter_all.
      + unfold appended. replace (c + st.2 - (c + st.1) + 1) with (st.2 - st.1 + 1) by lia. done.
      + intros x Hx%elem_of_seqZ. unfold kept. rewrite bool_decide_true by lia. done.
    - assert (st.2 < 0) as Hn2 by lia. destruct rev.
      + rewrite filter_none; [by rewrite appended_nil|]. intros x Hx%elem_of_seqZ. unfold kept. rewrite bool_decide_false by lia. done.
      + assert (4 * n <= vz d) as Hd by (destruct Hmode; done). pose proof nbr_side as (P1 & P2 & P3 & P4 & P5).
        rewrite (List.filter_ext_in (kept false) gf).
        2:{ intros x Hx%elem_of_list_In%elem_of_seqZ. unfold kept. rewrite bool_decide_false by lia. done. }
        replace (st.2 - st.1 + 1) with (c + st.2 - (c + st.1) + 1) by lia.
        destruct (strip_row st.1 st.2 Hle HR ltac:(lia)) as (t & Ht & E1 & Ht').
        assert (forall x, c + st.1 <= x <= c + st.2 -> in_cube n (V3 (vx t) (vy t) (vz t + (x - c - st.1))) /\
          gf x = negb (bool_decide (local_pos d n (vadd3 p (V3 (vx t) (vy t) (vz t + (x - c - st.1))))))) as Hgf.
        { intros x Hx. destruct (Ht' (x - c) ltac:(lia)) as [Hc Er]. split; [done|]. destruct (cell_of_offset _ Hc) as [_ H]. rewrite Er in H.
          replace (c + (x - c)) with x in H by lia. done. }
        apply (trim_spec s N gf T Hcells Hfill); [lia|lia|done| |].
        * intros x y z Hxy Hyz Gx Gz. destruct (Hgf x ltac:(lia)) as [Cx Ex]. destruct (Hgf y ltac:(lia)) as [Cy Ey]. destruct (Hgf z ltac:(lia)) as [Cz Ez].
          rewrite Ex in Gx. rewrite Ez in Gz. rewrite Ey. apply negb_true_iff, bool_decide_eq_false in Gx, Gz. apply negb_true_iff, bool_decide_eq_false.
          unfold local_pos, vadd3, in_cube in *; simpl in *. lia.
        * intros Gb Ge x Hx. destruct (Hgf (c + st.1) ltac:(lia)) as [Cb Eb]. destruct (Hgf (c + st.2) ltac:(lia)) as [Ce Ee]. destruct (Hgf x ltac:(lia)) as [Cx Ex].
          rewrite Eb in Gb. rewrite Ee in Ge. rewrite Ex. apply negb_false_iff, bool_decide_eq_true in Gb, Ge. apply negb_false_iff, bool_decide_eq_true.
          unfold local_pos, vadd3, in_cube in *; simpl in *. lia.
  Qed.

  Lemma getNeighbors_spec rev : rev = true \/ 4 * n <= vz d -> getNeighbors s rev c = appended [] (flat_map (inC T) (ncells rev)).
  Proof.
    intros Hmode. unfold getNeighbors. 
    assert (forall off nb, (forall st, st ∈ off -> st ∈ wOff s) -> (length nb <= MaxNeighborAtom)%nat ->
      foldM (fun nb st => let b := c + st.1 in let e := c + st.2 in
        if decide (c <= b) then nb_range s b e nb else if rev then Ok nb else
          let? cb := zget (wCells s) b in let? ce := zget (wCells s) e in
          if (dcGhost cb || dcGhost ce : bool) then
            let? b := to_ghost (S (length (wCells s))) s 1 b in let? e := to_ghost (S (length (wCells s))) s (-1) e in nb_range s b e nb
          else Ok nb) nb off = appended nb (flat_map (inC T) (List.filter (kept rev) (map (Z.add c) (flat_map expand off))))) as H.
    { induction off as [|st off IH]; intros nb Hin Hnb; [symmetry; by apply appended_nil|].
      pose proof (strip_step rev st nb Hmode (Hin st (elem_of_list_here _ _)) Hnb) as E. cbv zeta in E. cbn [foldM]. cbv zeta. rewrite E. clear E.
      cbv zeta in IH.
      cbn [flat_map]. rewrite map_app, List.filter_app, flat_map_app.
      set (X := flat_map (inC T) (List.filter (kept rev) (map (Z.add c) (expand st)))).
      set (Y := flat_map (inC T) (List.filter (kept rev) (map (Z.add c) (flat_map expand off)))).
      unfold appended at 1. destruct (decide (length nb + length X <= MaxNeighborAtom)%nat) as [Hl|Hl]; cbn [obind].
      - rewrite IH; [|intros; apply Hin; by right|rewrite app_length; done]. fold Y. unfold appended. rewrite !app_length.
        destruct (decide (length nb + length X + length Y <= MaxNeighborAtom)%nat).
        + rewrite decide_True by lia. by rewrite app_assoc.
        + rewrite decide_False by lia. done.
      - unfold appended. rewrite app_length. rewrite decide_False by lia. done. }
    destruct nbr_offsets as [_ HE]. unfold ncells. rewrite <- HE. apply (H (wOff s) []); [done|simpl; lia].
  Qed.
  Lemma ncells_head rev : exists cs, ncells rev = c :: cs.
  Proof. unfold ncells. simpl. unfold kept at 1. rewrite Z.add_0_r, bool_decide_true by lia. eauto. Qed.
  Lemma NoDup_ncells rev : NoDup (ncells rev).
  Proof.
    unfold ncells. assert (NoDup (map (Z.add c) (0 :: Reach))) as H by (apply NoDup_fmap_2; [intros ? ? ?; lia|apply reach_NoDup]).
    revert H. generalize (map (Z.add c) (0 :: Reach)). induction 1 as [|x l Hx Hl IH]; simpl; [apply NoDup_nil_2|].
    destruct (kept rev x); [|done]. apply NoDup_cons. split; [|done]. rewrite elem_of_list_In, filter_In, <- elem_of_list_In. tauto.
  Qed.
  Lemma elem_of_ncells rev c' : c' ∈ ncells rev <-> (c' = c \/ exists o, o ∈ Reach /\ c' = c + o) /\ (c <= c' \/ (rev = false /\ gf c' = true)).
  Proof.
    unfold ncells. rewrite elem_of_list_In, filter_In, <- elem_of_list_In. unfold kept. rewrite orb_true_iff, bool_decide_eq_true, andb_true_iff, negb_true_iff.
    rewrite elem_of_list_fmap. setoid_rewrite elem_of_cons. split.
    - intros [(o & -> & [->|Ho]) H]; (split; [|done]); [left; lia|right; eauto].
    - intros [[->|(o & Ho & ->)] H]; (split; [|done]); [exists 0; split; [lia|by left]|exists o; split; [done|by right]].
  Qed.
End neighbors.
