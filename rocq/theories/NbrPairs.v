(** Lemmas about PairPotential::buildCellList, PairList::build and PairIterator of the parallel program. *)
From Verif Require Import Base Vec3 BoxSpec DomainModel DomainSpec DomainProofs SpeciesModel SpeciesProofs NbrModel NbrOffsets NbrCells NbrGet NbrSearch.
From Coq Require Import Reals Lra.
Local Open Scope Z_scope.

(** ** buildCellList *)
Definition tagged (s : dclist) (g : nat -> vec3 R) (l : list nat) : list (nat * Z) :=
  List.filter (fun t => bool_decide (0 <= t.2)) (map (fun a => (a, dd_index s (g a))) l).
Lemma elem_of_tagged s g l a c : (a, c) ∈ tagged s g l <-> a ∈ l /\ c = dd_index s (g a) /\ 0 <= c.
Proof.
  unfold tagged. rewrite elem_of_list_In, filter_In, <- elem_of_list_In, elem_of_list_fmap. simpl. rewrite bool_decide_eq_true. naive_solver.
Qed.
Lemma tagged_app s g l l' : tagged s g (l ++ l') = tagged s g l ++ tagged s g l'.
Proof. unfold tagged. by rewrite map_app, List.filter_app. Qed.
Lemma tagged_length s g l : (length (tagged s g l) <= length l)%nat.
Proof. unfold tagged. induction l as [|a l IH]; simpl; [lia|]. destruct (bool_decide _); simpl; lia. Qed.
Lemma NoDup_tagged s g l : NoDup l -> NoDup (map fst (tagged s g l)).
Proof.
  induction 1 as [|a l Ha Hl IH]; simpl; [apply NoDup_nil_2|]. unfold tagged; cbn [map List.filter].
  destruct (bool_decide _); [|done]. simpl. apply NoDup_cons. split; [|done].
  intros ([x c] & E & H)%elem_of_list_fmap. simpl in E. subst x. apply elem_of_tagged in H as (? & _). done.
Qed.
Lemma index_range lower upper cutoffs n s p : grid_state lower upper cutoffs n s -> dd_index s p < 0 \/ 0 <= dd_index s p < grid_size (wGrid s).
Proof.
  intros G. destruct (in_outer_dec s p) as [H|H].
  - right. rewrite dd_index_in by done. apply rank_range; [eapply gs_grid_ok; done|]. eapply coords_in; done.
  - left. rewrite dd_index_out by done. lia.
Qed.
Lemma grid_state_put lower upper cutoffs n s cells tags atoms rej built : grid_state lower upper cutoffs n s -> dd_cells_ok (wGrid s) n cells (wList s) ->
  grid_state lower upper cutoffs n (dcl_put s cells tags atoms rej built).
Proof. intros [] H. constructor; done. Qed.

Lemma place_all lower upper cutoffs n s g atoms built l : grid_state lower upper cutoffs n s -> forall T rej, (length T + length l <= length atoms)%nat ->
  foldM (fun s a => dd_place s a (g a)) (dcl_put s (placed (grid_size (wGrid s)) (gflag (wGrid s) n) T) T atoms rej built) l =
  Ok (dcl_put s (placed (grid_size (wGrid s)) (gflag (wGrid s) n) (T ++ tagged s g l)) (T ++ tagged s g l) atoms (rej + (length l - length (tagged s g l))) built).
Proof.
  intros G. induction l as [|a l IH]; intros T rej Hl.
  - cbn [foldM tagged map List.filter length]. rewrite app_nil_r. by rewrite Nat.add_0_r.
  - cbn [foldM]. unfold dd_place at 1.
    change (dd_index (dcl_put s (placed (grid_size (wGrid s)) (gflag (wGrid s) n) T) T atoms rej built) (g a)) with (dd_index s (g a)).
    cbn [wTags wAtoms wCells wRej wBuilt dcl_put]. unfold tagged. cbn [map List.filter snd]. fold (tagged s g l).
    assert (length (tagged s g l) <= length l)%nat as Hlt.
    { apply tagged_length. }
    simpl in Hl. destruct (index_range _ _ _ _ _ (g a) G) as [Hneg|Hr].
    + rewrite decide_False by lia. rewrite bool_decide_false by lia. cbn [obind].
      etransitivity; [apply (IH T (S rej)); lia|]. do 2 f_equal. simpl. lia.
    + rewrite decide_True by lia. rewrite decide_True by lia. rewrite bool_decide_true by lia.
      pose proof (place_tab (grid_size (wGrid s)) (gflag (wGrid s) n) T a (dd_index s (g a)) Hr) as E.
      destruct (zget (placed _ _ T) (dd_index s (g a))) as [x| |]; cbn [obind] in E |- *; try done. rewrite E. cbn [obind].
      etransitivity; [apply (IH (T ++ [(a, dd_index s (g a))]) rej); rewrite app_length; simpl; lia|].
      rewrite <- app_assoc. do 2 f_equal.
Qed.

Record built_state (lower upper cutoffs : vec3 R) (n : Z) (g : nat -> vec3 R) (l : list nat) (s : dclist) : Prop := BS {
  bs_grid : grid_state lower upper cutoffs n s;
  bs_tags : wTags s = tagged s g l;
  bs_cells : wCells s = prepared (grid_size (wGrid s)) (gflag (wGrid s) n) (wTags s) (wTags s);
  bs_fill : filled (grid_size (wGrid s)) (wTags s) (wAtoms s);
  bs_built : wBuilt s = true }.

Lemma capacity_inv cap s : dcl_inv s -> dcl_inv (dd_capacity cap s) /\ (cap <= length (wAtoms (dd_capacity cap s)))%nat.
Proof.
  intros H. unfold dd_capacity. destruct (decide _); [|split; [done|lia]]. split; [exact H|]. cbn [dcl_put wAtoms]. rewrite replicate_length. lia.
Qed.
Lemma buildCellList_spec cap lower upper cutoffs n locals ghosts g s : (0 < vx cutoffs /\ 0 < vy cutoffs /\ 0 < vz cutoffs)%R -> dcl_inv s ->
  (length locals + length ghosts <= cap)%nat ->
  match buildCellList cap lower upper cutoffs n locals ghosts g s with
  | Ok s' => built_state lower upper cutoffs n g (locals ++ ghosts) s' /\ dcl_inv s'
  | Throw => ~ region_ok lower upper cutoffs n
  | UB => False
  end.
Proof.
  intros HC HI Hcap. unfold buildCellList. destruct (capacity_inv cap s HI) as [HI' Hlen]. set (s0 := dd_capacity cap s) in *.
  pose proof (makeGrid_spec lower upper cutoffs n s0 HC HI') as HM.
  destruct (dd_makeGrid lower upper cutoffs n s0) as [s1| |]; cbn [obind]; [|done|done]. destruct HM as (G & Et & Ea).
  unfold dd_clear. destruct (gs_cells _ _ _ _ _ G) as [(f & Ef & Hf) El].
  change (dd_size s1) with (Z.to_nat (grid_size (wGrid s1))). rewrite Ef, (clear_tab _ (gflag (wGrid s1) n) f Hf). cbn [obind].
  set (N := grid_size (wGrid s1)). set (gf := gflag (wGrid s1) n).
  assert (length (@nil (nat * Z)) + length locals <= length (wAtoms s1))%nat as H1 by (rewrite Ea; simpl; lia).
  rewrite (place_all lower upper cutoffs n s1 g _ _ locals G [] 0%nat H1). cbn [obind app].
  assert (length (tagged s1 g locals) <= length locals)%nat as Hl1.
  { apply tagged_length. }
  assert (length (tagged s1 g ghosts) <= length ghosts)%nat as Hl2.
  { apply tagged_length. }
  rewrite (place_all lower upper cutoffs n s1 g _ _ ghosts G) by (rewrite Ea; lia). cbn [obind].
  rewrite <- tagged_app. set (T := tagged s1 g (locals ++ ghosts)).
  assert (forall a c, (a, c) ∈ T -> 0 <= c < N) as HT.
  { intros a c (_ & -> & H)%elem_of_tagged. destruct (index_range _ _ _ _ _ (g a) G) as [?|?]; [lia|done]. }
  unfold dd_build. change (dd_size (dcl_put s1 (placed N gf T) T (wAtoms s1) (0 + (length locals - length (tagged s1 g locals)) + (length ghosts - length (tagged s1 g ghosts)))%nat false)) with (Z.to_nat N).
  cbn [wCells wTags wAtoms wRej dcl_put]. rewrite initialize_tab.
  2:{ pose proof (gs_dims _ _ _ _ _ G) as (?&?&?). pose proof (gs_n _ _ _ _ _ G). pose proof (size_27 (wGrid s1) n). unfold N. lia. }
  cbn [obind].
  destruct (fill_tab N gf T (wAtoms s1) HT) as (atoms' & E & HF & Hl'). { unfold T. rewrite tagged_app, app_length, Ea. lia. }
  unfold N, gf in E. rewrite E. fold N gf. cbn [obind]. cbn [dcl_put wTags wRej]. cbn [wTags wRej].
  rewrite bool_decide_true by (unfold T; rewrite tagged_app, app_length; lia). cbn [check obind].
  assert (dd_cells_ok (wGrid s1) n (prepared N gf T T) (wList s1)) as Hok.
  { split; [|done]. eexists. split; [done|]. done. }
  split.
  - constructor; cbn [wGrid wTags wCells wAtoms wBuilt dcl_put]; try done. apply (grid_state_put _ _ _ _ s1); done.
  - intros _. unfold dcl_put. cbn [wGrid wCut wCells wList]. rewrite (gs_cut _ _ _ _ _ G). done.
Qed.

(** ** The loops over primary and secondary atoms *)
Lemma NoDup_inC T c : NoDup (map fst T) -> NoDup (inC T c).
Proof.
  induction T as [|[a c'] T IH]; intros H; [apply NoDup_nil_2|]. simpl in H. apply NoDup_cons in H as [Ha HT].
  unfold inC. cbn [List.filter snd]. destruct (bool_decide (c' = c)); [|by apply IH]. simpl. apply NoDup_cons. split; [|by apply IH].
  intros H%elem_of_inC. apply Ha. apply elem_of_list_fmap. by exists (a, c).
Qed.
Lemma tag_unique (T : list (nat * Z)) a c c' : NoDup (map fst T) -> (a, c) ∈ T -> (a, c') ∈ T -> c = c'.
Proof.
  induction T as [|[x y] T IH]; intros HN H H'; [by apply elem_of_nil in H|]. simpl in HN. apply NoDup_cons in HN as [Hx HN].
  apply elem_of_cons in H as [E|H]; apply elem_of_cons in H' as [E'|H'].
  - congruence.
  - injection E as <- <-. exfalso. apply Hx. apply elem_of_list_fmap. by exists (a, c').
  - injection E' as <- <-. exfalso. apply Hx. apply elem_of_list_fmap. by exists (a, c).
  - by apply IH.
Qed.

Definition pairs_of (l : list (nat * list nat)) : list (nat * nat) := flat_map (fun x => map (pair x.1) x.2) l.

Section primary.
  Context (lower upper cutoffs : vec3 R) (n : Z) (g : nat -> vec3 R) (l : list nat) (s : dclist).
  Hypothesis B : built_state lower upper cutoffs n g l s.
  Hypothesis Hl : NoDup l.
  Context (rev : bool) (cutoff : R) (r : nat -> vec3 R) (masked : nat -> nat -> bool).
  Hypothesis Hmode : rev = true \/ 4 * n <= vz (wGrid s).
  Notation d := (wGrid s).
  Notation T := (wTags s).
  Notation gf := (gflag d n).
  Notation Reach := (reach d (qvec s cutoffs) n).

  Definition closeb (a b : nat) : bool := (if Rlt_dec (normSq (vsub (r b) (r a))) (cutoff * cutoff) then true else false) && negb (masked a b).
  Definition nbof (c : Z) : list nat := flat_map (inC T) (List.filter (fun c' => bool_decide (c <= c') || (negb rev && gf c')) (map (Z.add c) (0 :: Reach))).
  Definition prim (c : Z) : list (nat * list nat) := imap (fun i a => (a, List.filter (closeb a) (drop (S i) (nbof c)))) (inC T c).

  Lemma T_NoDup : NoDup (map fst T).
  Proof. rewrite (bs_tags _ _ _ _ _ _ _ B). by apply NoDup_tagged. Qed.
  Lemma list_locals : wList s = dd_locals d n.
  Proof. apply (gs_cells _ _ _ _ _ (bs_grid _ _ _ _ _ _ _ B)). Qed.
  Lemma local_cell_pos c : c ∈ wList s -> exists p, local_pos d n p /\ c = grid_rank d p.
  Proof. rewrite list_locals. by rewrite elem_of_dd_locals. Qed.
  Lemma nbof_get c : c ∈ wList s -> getNeighbors s rev c = if decide (length (nbof c) <= MaxNeighborAtom)%nat then Ok (nbof c) else Throw.
  Proof.
    intros (p & Hp & ->)%local_cell_pos.
    rewrite (getNeighbors_spec lower upper cutoffs n s T (bs_grid _ _ _ _ _ _ _ B) (bs_cells _ _ _ _ _ _ _ B) (bs_fill _ _ _ _ _ _ _ B) p Hp rev Hmode).
    unfold appended. simpl length. simpl app. done.
  Qed.
  Lemma nbof_head c : exists rest, nbof c = inC T c ++ rest.
  Proof. unfold nbof. simpl. rewrite Z.add_0_r, bool_decide_true by lia. simpl. eauto. Qed.
  Lemma local_range c : c ∈ wList s -> 0 <= c < grid_size d.
  Proof.
    pose proof (bs_grid _ _ _ _ _ _ _ B) as G. intros (p & Hp & ->)%local_cell_pos. apply rank_range; [by eapply gs_grid_ok|].
    eapply local_in_grid; [|done]. pose proof (gs_n _ _ _ _ _ G). lia.
  Qed.

  Lemma prim_cell c acc : c ∈ wList s ->
    (let? x := zget (wCells s) c in
     if decide (dcN x = 0)%nat then Ok acc else
     let? nb := getNeighbors s rev c in
     foldM (fun acc i => let? a := aget nb i in
       Ok (acc ++ [(a, List.filter (fun b => (if Rlt_dec (normSq (vsub (r b) (r a))) (cutoff * cutoff) then true else false) && negb (masked a b)) (drop (S i) nb))])) acc (seq 0 (dcN x)))
    = if decide (inC T c = [] \/ (length (nbof c) <= MaxNeighborAtom)%nat) then Ok (acc ++ prim c) else Throw.
  Proof.
    intros Hc. rewrite (bs_cells _ _ _ _ _ _ _ B) at 1. unfold prepared. rewrite zget_tab by (by apply local_range). cbn [obind dcN].
    destruct (decide (length (inC T c) = 0)%nat) as [E|E].
    - apply length_zero_iff_nil in E. rewrite decide_True by (by left). unfold prim. rewrite E. by rewrite app_nil_r.
    - rewrite nbof_get by done. destruct (decide (length (nbof c) <= MaxNeighborAtom)%nat) as [Hn|Hn]; cbn [obind].
      2:{ rewrite decide_False; [done|]. intros [E'|?]; [|done]. apply E. by rewrite E'. }
      rewrite decide_True by (by right). destruct (nbof_head c) as (rest & Enb).
      assert (forall k j acc, (j + k = length (inC T c))%nat ->
        foldM (fun acc i => let? a := aget (nbof c) i in
          Ok (acc ++ [(a, List.filter (fun b => (if Rlt_dec (normSq (vsub (r b) (r a))) (cutoff * cutoff) then true else false) && negb (masked a b)) (drop (S i) (nbof c)))])) acc (seq j k)
        = Ok (acc ++ imap (fun i a => (a, List.filter (closeb a) (drop (S (j + i)) (nbof c)))) (drop j (inC T c)))) as H.
      { induction k as [|k IH]; intros j acc' Hj.
        - rewrite drop_ge by lia. simpl. by rewrite app_nil_r.
        - cbn [seq foldM]. destruct (lookup_lt_is_Some_2 (inC T c) j) as [a Ha]; [lia|].
          assert (aget (nbof c) j = Ok a) as -> by (apply aget_Ok; rewrite Enb; by apply lookup_app_l_Some).
          cbn [obind]. rewrite IH by lia. rewrite (drop_S _ _ _ Ha). cbn [imap]. rewrite <- app_assoc. simpl. rewrite Nat.add_0_r. f_equal. f_equal. f_equal.
          apply imap_ext. intros i x _. simpl. do 3 f_equal. lia. }
      rewrite (H (length (inC T c)) 0%nat acc) by lia. unfold prim. f_equal.
  Qed.
  Lemma primary_spec : dd_primary s rev cutoff r masked = if decide (Forall (fun c => inC T c = [] \/ (length (nbof c) <= MaxNeighborAtom)%nat) (wList s)) then Ok (flat_map prim (wList s)) else Throw.
  Proof.
    unfold dd_primary.
    assert (forall L acc, (forall c, c ∈ L -> c ∈ wList s) ->
      foldM (fun acc c => let? x := zget (wCells s) c in
        if decide (dcN x = 0)%nat then Ok acc else
        let? nb := getNeighbors s rev c in
        foldM (fun acc i => let? a := aget nb i in
          Ok (acc ++ [(a, List.filter (fun b => (if Rlt_dec (normSq (vsub (r b) (r a))) (cutoff * cutoff) then true else false) && negb (masked a b)) (drop (S i) nb))])) acc (seq 0 (dcN x))) acc L
      = if decide (Forall (fun c => inC T c = [] \/ (length (nbof c) <= MaxNeighborAtom)%nat) L) then Ok (acc ++ flat_map prim L) else Throw) as H.
    { induction L as [|c L IH]; intros acc Hin.
      - cbn [foldM flat_map]. rewrite decide_True by constructor. by rewrite app_nil_r.
      - cbn [foldM]. rewrite (prim_cell c acc (Hin c (elem_of_list_here _ _))).
        destruct (decide (inC T c = [] \/ (length (nbof c) <= MaxNeighborAtom)%nat)) as [Hc|Hc]; cbn [obind].
        + rewrite IH by (intros; apply Hin; by right). cbn [flat_map].
          destruct (decide (Forall _ L)) as [HL|HL].
          * rewrite decide_True by (by constructor). by rewrite app_assoc.
          * rewrite decide_False; [done|]. intros HF. apply HL. by inversion HF.
        + rewrite decide_False; [done|]. intros HF. apply Hc. by inversion HF. }
    apply (H (wList s) []). done.
  Qed.

  Definition allpairs : list (nat * nat) := pairs_of (flat_map prim (wList s)).
  Lemma elem_of_allpairs a b : (a, b) ∈ allpairs <-> closeb a b = true /\
    exists c c', c ∈ wList s /\ (a, c) ∈ T /\ (b, c') ∈ T /\ (c' = c \/ exists o, o ∈ Reach /\ c' = c + o) /\ (c <= c' \/ (rev = false /\ gf c' = true)) /\
      (c' = c -> exists i j : nat, (i < j)%nat /\ inC T c !! i = Some a /\ inC T c !! j = Some b).
  Proof.
    unfold allpairs, pairs_of. rewrite elem_of_flat_map. split.
    - intros ([a' bs] & H & Hin). simpl in Hin. apply elem_of_list_fmap in Hin as (b' & E & Hb). injection E as <- <-.
      apply elem_of_flat_map in H as (c & Hc & H). unfold prim in H. apply elem_of_lookup_imap_1 in H as (i & a' & E & Ha). injection E as <- ->.
      apply elem_of_list_In, filter_In in Hb as [Hb Hcl]. split; [done|]. apply elem_of_list_In, elem_of_list_lookup in Hb as (k & Hk).
      rewrite lookup_drop in Hk. set (j := (S i + k)%nat) in *.
      assert (b ∈ nbof c) as Hbn by (eapply elem_of_list_lookup_2; done). unfold nbof in Hbn. apply elem_of_flat_map in Hbn as (c' & Hc' & Hbc).
      apply elem_of_list_In, filter_In in Hc' as [Hc' Hk']. apply elem_of_list_In, elem_of_list_fmap in Hc' as (o & -> & Ho).
      apply orb_true_iff in Hk'. rewrite bool_decide_eq_true, andb_true_iff, negb_true_iff in Hk'.
      exists c, (c + o). split; [done|]. split; [apply elem_of_inC; by eapply elem_of_list_lookup_2|]. split; [by apply elem_of_inC|].
      split; [apply elem_of_cons in Ho as [->|Ho]; [left; lia|right; eauto]|]. split; [done|].
      intros E. rewrite E in Hbc. exists i, j. split; [lia|]. split; [done|].
      destruct (nbof_head c) as (rest & Enb). rewrite Enb in Hk. apply lookup_app_Some in Hk as [?|[Hge Hk]]; [done|]. exfalso.
      (* b would be both in cell c and later *)
      assert (b ∈ rest) as Hr by (eapply elem_of_list_lookup_2; done).
      assert (NoDup (nbof c)) as HN.
      { unfold nbof. apply NoDup_flat_map.
        - destruct (local_cell_pos c Hc) as (p & Hp & ->). apply (NoDup_ncells lower upper cutoffs n s (bs_grid _ _ _ _ _ _ _ B) p rev).
        - intros x _. apply NoDup_inC, T_NoDup.
        - intros x y z _ _ Hx%elem_of_inC Hy%elem_of_inC. by eapply tag_unique; [apply T_NoDup| |]. }
      rewrite Enb in HN. apply NoDup_app in HN as (_ & HN & _). by apply (HN b).
    - intros (Hcl & c & c' & Hc & Ha & Hb & Ho & Hk & Hsame).
      assert (c' ∈ List.filter (fun c' => bool_decide (c <= c') || (negb rev && gf c')) (map (Z.add c) (0 :: Reach))) as Hc'.
      { apply elem_of_list_In, filter_In. split.
        - apply elem_of_list_In, elem_of_list_fmap. destruct Ho as [->|(o & Ho & ->)]; [exists 0; split; [lia|left]|exists o; split; [done|by right]].
        - apply orb_true_iff. rewrite bool_decide_eq_true, andb_true_iff, negb_true_iff. done. }
      assert (exists i j : nat, (i < j)%nat /\ inC T c !! i = Some a /\ nbof c !! j = Some b) as (i & j & Hij & Hi & Hj).
      { destruct (nbof_head c) as (rest & Enb). destruct (decide (c' = c)) as [E|E].
        - destruct (Hsame E) as (i & j & Hij & Hi & Hj). exists i, j. split; [done|]. split; [done|]. rewrite Enb. by apply lookup_app_l_Some.
        - assert (b ∈ nbof c) as Hbn by (unfold nbof; apply elem_of_flat_map; exists c'; split; [done|by apply elem_of_inC]).
          rewrite Enb in Hbn. apply elem_of_app in Hbn as [Hbn|Hbn].
          + exfalso. apply E. apply elem_of_inC in Hbn. by eapply tag_unique; [apply T_NoDup| |].
          + apply elem_of_inC, elem_of_list_lookup in Ha as (i & Hi). apply elem_of_list_lookup in Hbn as (k & Hk').
            exists i, (length (inC T c) + k)%nat. pose proof (lookup_lt_Some _ _ _ Hi). split; [lia|]. split; [done|]. rewrite Enb.
            rewrite lookup_app_r by lia. rewrite <- Hk'. f_equal. lia. }
      exists (a, List.filter (closeb a) (drop (S i) (nbof c))). split.
      + apply elem_of_flat_map. exists c. split; [done|]. unfold prim. apply elem_of_lookup_imap_2 with (f := fun i a => (a, List.filter (closeb a) (drop (S i) (nbof c)))). done.
      + simpl. apply elem_of_list_fmap. exists b. split; [done|]. apply elem_of_list_In, filter_In. split; [|done].
        apply elem_of_list_In. apply elem_of_list_lookup. exists (j - S i)%nat. rewrite lookup_drop. rewrite <- Hj. f_equal. lia.
  Qed.
  Lemma NoDup_nbof c : c ∈ wList s -> NoDup (nbof c).
  Proof.
    intros Hc. unfold nbof. apply NoDup_flat_map.
    - destruct (local_cell_pos c Hc) as (p & Hp & ->). apply (NoDup_ncells lower upper cutoffs n s (bs_grid _ _ _ _ _ _ _ B) p rev).
    - intros x _. apply NoDup_inC, T_NoDup.
    - intros x y z _ _ Hx%elem_of_inC Hy%elem_of_inC. by eapply tag_unique; [apply T_NoDup| |].
  Qed.
  Lemma NoDup_filterb {A} (P : A -> bool) (L : list A) : NoDup L -> NoDup (List.filter P L).
  Proof.
    induction 1 as [|x L Hx HL IH]; simpl; [apply NoDup_nil_2|]. destruct (P x); [|done]. apply NoDup_cons. split; [|done].
    rewrite elem_of_list_In, filter_In, <- elem_of_list_In. tauto.
  Qed.
  Lemma NoDup_allpairs : NoDup allpairs.
  Proof.
    unfold allpairs, pairs_of. apply NoDup_flat_map.
    - apply NoDup_flat_map.
      + rewrite list_locals. pose proof (bs_grid _ _ _ _ _ _ _ B) as G. apply NoDup_dd_locals; [by eapply gs_grid_ok|]. pose proof (gs_n _ _ _ _ _ G). lia.
      + intros c Hc. unfold prim. apply NoDup_alt. intros i j x Hi Hj. rewrite list_lookup_imap in Hi, Hj.
        apply fmap_Some in Hi as (a & Ha & ->), Hj as (a' & Ha' & E). injection E as <- _.
        eapply NoDup_lookup; [apply NoDup_inC, T_NoDup|done|done].
      + intros c c' [a bs] _ _ H H'. unfold prim in H, H'. apply elem_of_lookup_imap_1 in H as (i & a' & E & Hi), H' as (i' & a'' & E' & Hi').
        injection E as <- _. injection E' as <- _. apply elem_of_list_lookup_2, elem_of_inC in Hi, Hi'. by eapply tag_unique; [apply T_NoDup| |].
    - intros [a bs] H. simpl. apply elem_of_flat_map in H as (c & Hc & H). unfold prim in H. apply elem_of_lookup_imap_1 in H as (i & a' & E & Hi). injection E as <- ->.
      apply NoDup_fmap_2; [intros ? ? E; by injection E|]. apply NoDup_filterb. pose proof (NoDup_nbof c Hc) as HN. rewrite <- (take_drop (S i) (nbof c)) in HN.
      apply NoDup_app in HN. tauto.
    - intros [a bs] [a' bs'] [x y] H H' Hx Hx'. simpl in Hx, Hx'. apply elem_of_list_fmap in Hx as (? & E & _), Hx' as (? & E' & _). injection E as -> ->. injection E' as -> ->.
      apply elem_of_flat_map in H as (c & Hc & H). unfold prim in H. apply elem_of_lookup_imap_1 in H as (i & a1 & E & Hi). injection E as <- ->.
      apply elem_of_flat_map in H' as (c' & Hc' & H'). unfold prim in H'. apply elem_of_lookup_imap_1 in H' as (i' & a2 & E & Hi'). injection E as <- ->.
      assert (c = c') as <-.
      { pose proof (elem_of_list_lookup_2 _ _ _ Hi) as X. pose proof (elem_of_list_lookup_2 _ _ _ Hi') as X'. apply elem_of_inC in X, X'. by eapply tag_unique; [apply T_NoDup| |]. }
      assert (i = i') as <- by (eapply NoDup_lookup; [apply NoDup_inC, T_NoDup|done|done]). done.
  Qed.
End primary.
