(** Lemmas about pair selectors and the sums over the pairs they accept. *)
From stdpp Require Import gmap.
From Verif Require Import Base Vec3 BoxSpec McCellModel DomainModel SpeciesModel CellListModel CellListSpec CellListProofs
  PairListModel PairListSpec EnergyModel EnergySpec EnergyProofs PairSelModel PairSelSpec.
From Coq Require Import Reals Lra.
Local Open Scope R_scope.

Lemma ty_iff (t1 t : Z) : (Z.leb 0 t1 && negb (Z.eqb t t1))%bool = false <-> (t1 < 0)%Z \/ t = t1.
Proof. destruct (Z.leb_spec 0 t1), (Z.eqb_spec t t1); cbn; split; intros; try done; try lia; auto. Qed.
Lemma match_iff molOf ty s i j : sel_match molOf ty s i j = true <->
  wanted molOf ty s i j /\ (slAvoid s = true -> ((slT1 s < 0)%Z /\ (slT2 s < 0)%Z) \/ ty i = ty j -> (i <= j)%nat).
Proof.
  unfold sel_match, wanted.
  set (c := match slType s with INTRA => negb (Nat.eqb (molOf i) (molOf j)) | INTER => Nat.eqb (molOf i) (molOf j) | ALL => false end).
  assert (Hc : c = false <-> (slType s = INTRA -> molOf i = molOf j) /\ (slType s = INTER -> molOf i <> molOf j)).
  { unfold c. destruct (slType s); destruct (Nat.eqb_spec (molOf i) (molOf j)); cbn [negb]; split; intros; try done; try (by split); destruct H as [H1 H2]; by try specialize (H1 eq_refl); try specialize (H2 eq_refl). }
  destruct c; [split; [done|]; intros [(_ & H1 & H2 & _) _]; exfalso; pose proof (proj2 Hc (conj H1 H2)); done|]. destruct (proj1 Hc eq_refl) as [C1 C2]. clear Hc.
  destruct (Nat.eqb_spec i j) as [|Hij]; [split; [done|]; by intros [[? _] _]|].
  destruct (Z.leb 0 (slT1 s) && negb (Z.eqb (ty i) (slT1 s)))%bool eqn:E1.
  { split; [done|]. intros [(_ & _ & _ & H & _) _]. apply ty_iff in H. congruence. }
  destruct (Z.leb 0 (slT2 s) && negb (Z.eqb (ty j) (slT2 s)))%bool eqn:E2.
  { split; [done|]. intros [(_ & _ & _ & _ & H) _]. apply ty_iff in H. congruence. }
  apply ty_iff in E1, E2. destruct (slAvoid s); [|by split].
  destruct (Z.ltb (slT1 s) 0 && Z.ltb (slT2 s) 0)%bool eqn:E3.
  - apply andb_true_iff in E3 as [E3 E4]. apply Z.ltb_lt in E3, E4. destruct (Nat.ltb_spec j i); cbn [negb].
    + split; [done|]. intros [_ H']. specialize (H' eq_refl ltac:(auto)). lia.
    + split; [|done]. intros _. repeat (split; [done|]). intros; lia.
  - assert (~ ((slT1 s < 0)%Z /\ (slT2 s < 0)%Z)) as E4. { intros [A1 A2]. apply Z.ltb_lt in A1, A2. rewrite A1, A2 in E3. done. }
    destruct (Z.eqb_spec (ty i) (ty j)) as [E5|E5].
    + destruct (Nat.ltb_spec j i); cbn [negb].
      * split; [done|]. intros [_ H']. specialize (H' eq_refl ltac:(auto)). lia.
      * split; [|done]. intros _. repeat (split; [done|]). intros; lia.
    + split; [|done]. intros _. repeat (split; [done|]). by intros _ [|].
Qed.

Section System.
  Context (M cap : nat) (HM : (2 <= M)%nat) (toGen : vec3 R -> vec3 R) (dist2 : vec3 R -> vec3 R -> R) (n : vec3 Z).
  Context (masked : nat -> nat -> bool) (u : R -> Z -> Z -> R) (cut : R).
  Context (molOf : nat -> nat) (A : list nat) (HA : NoDup A).
  Context (Hadj : forall r q, primary (toGen r) -> primary (toGen q) -> dist2 r q < cut * cut ->
             adjacent n (ccell n (toGen r)) (ccell n (toGen q))).
  Context (Hcut : forall r t1 t2, cut * cut <= r -> u r t1 t2 = 0).
  Local Notation ci := (clinv M cap toGen n).
  Local Notation held_but := (held_but A).
  Local Notation w := (w dist2 masked u).

  (** The loops over cells visit every ordered pair of atoms that may interact once. *)
  Lemma sel_energy_eq sel s h : ci (sCells s) h -> held_but h (sPos s) [] ->
    sel_energy M dist2 masked u molOf sel s =
    Ok (sum_over A (fun i => sum_over A (fun j => if sel_match molOf (sTy s) sel i j then w (sPos s) (sTy s) i j else 0))).
  Proof using HM HA Hadj Hcut.
    intros I Hh. set (l := sCells s) in *. pose proof (ci_wf _ _ _ _ _ _ I) as W.
    set (mt := sel_match molOf (sTy s) sel).
    set (G := fun i => sum_over A (fun j => if mt i j then w (sPos s) (sTy s) i j else 0)).
    assert (Hpos : forall i q, h !! i = Some q -> i ∈ A /\ q = sPos s i).
    { intros i q Hq. assert (i ∈ A) as Hi by (apply (proj1 Hh); eauto). split; [done|].
      rewrite (proj2 Hh i Hi ltac:(apply not_elem_of_nil)) in Hq. by injection Hq. }
    assert (Hat : forall ic, (0 <= ic < clTot l)%Z -> NoDup (atoms_of (clCells l) ic) /\
              forall a, a ∈ atoms_of (clCells l) ic <-> a ∈ A /\ ix toGen n (sPos s a) = ic).
    { intros ic Hic. destruct (atoms_of_spec M cap HM toGen n l h ic I Hic) as (H1 & _ & H2). split; [done|]. intros a. rewrite H2. split.
      - intros (q & Hq & E). destruct (Hpos _ _ Hq) as [Ha ->]. done.
      - intros [Ha E]. exists (sPos s a). split; [|done]. apply (proj2 Hh); [done|apply not_elem_of_nil]. }
    unfold sel_energy. fold l mt.
    rewrite (foldM_sum_ext _ (fun ic => sum_over (atoms_of (clCells l) ic) G)).
    - rewrite Rplus_0_l. f_equal. rewrite <- sum_flat. fold G. apply sum_perm. apply NoDup_Permutation.
      + apply nodup_flat_map; [apply NoDup_seqZ| |].
        * intros ic Hic. apply elem_of_seqZ in Hic. apply Hat. lia.
        * intros i j a Hi Hj Ha Hb. apply elem_of_seqZ in Hi, Hj. apply Hat in Ha as [_ <-]; [|lia]. apply Hat in Hb as [_ <-]; [done|lia].
      + done.
      + intros a. rewrite elem_flat_map. split.
        * intros (ic & Hic & Ha). apply elem_of_seqZ in Hic. by apply Hat in Ha as [? _]; [|lia].
        * intros Ha. pose proof (proj2 Hh a Ha ltac:(apply not_elem_of_nil)) as Hq. destruct (ci_prim _ _ _ _ _ _ I _ _ Hq) as [Hp _].
          destruct (g_index _ _ W toGen _ Hp) as [_ Hg]. exists (ix toGen n (sPos s a)).
          assert (0 <= ix toGen n (sPos s a) < clTot l)%Z as Hr by (rewrite (g_tot _ _ W); by apply cidx_range).
          split; [apply elem_of_seqZ; lia|]. by apply Hat.
    - intros e ic Hic%elem_of_seqZ. assert (0 <= ic < clTot l)%Z as Hr by lia. destruct (g_index_ex _ _ W ic Hr) as (c & Hg & Ec).
      assert (forall j, (0 <= j < clTot l)%Z -> (length (atoms_of (clCells l) j) <= M)%nat) as HL.
      { intros j Hj. by apply (atoms_of_spec M cap HM toGen n l h j). }
      pose proof (neighbors_eq M l n c W Hg HL) as HN. rewrite <- Ec in HN. rewrite HN. cbn [obind].
      set (xs := atoms_of (clCells l) ic) in *. set (ys := flat_map _ _) in *.
      assert (forall k pre e', length pre = k ->
        foldM (fun e ip => let? i := aget (pre ++ xs ++ ys) ip in
          Ok (fold_left (fun e j => if mt i j then if masked i j then e else e + pair_u dist2 u s i j else e) (xs ++ ys) e)) e' (seq k (length xs)) =
        foldM (fun e i => Ok (fold_left (fun e j => if mt i j then if masked i j then e else e + pair_u dist2 u s i j else e) (xs ++ ys) e)) e' xs) as HS.
      { generalize (xs ++ ys) at 2 3. intros zs. clear. induction xs as [|x xs IH]; intros k pre e' Hk; [done|].
        cbn [length seq foldM]. unfold aget at 1. rewrite lookup_app_r by lia. rewrite <- Hk, Nat.sub_diag. cbn [app lookup list_lookup obind].
        pose proof (IH (S (length pre)) (pre ++ [x])) as IH'. rewrite <- app_assoc in IH'. cbn [app] in IH'. apply IH'. rewrite app_length. cbn. lia. }
      etrans; [exact (HS 0%nat [] e eq_refl)|]. apply foldM_sum_ext. intros e' i Hi. f_equal.
      apply Hat in Hi as [HiA Hix]; [|done].
      pose proof (proj2 Hh i HiA ltac:(apply not_elem_of_nil)) as Hq. destruct (ci_prim _ _ _ _ _ _ I _ _ Hq) as [Hp _].
      destruct (neighbors_spec M cap HM toGen n _ _ _ I Hp) as (nb & nIn & Hc & _ & Hnd & Hel & _).
      rewrite (proj1 (g_index _ _ W toGen _ Hp)) in Hc. fold (ix toGen n (sPos s i)) in Hc. rewrite Hix, HN in Hc. injection Hc as <- _.
      rewrite (fold_sum_ext _ (fun j => if mt i j then w (sPos s) (sTy s) i j else 0)).
      + f_equal. unfold G. apply (nb_sum toGen dist2 n u cut A HA Hadj Hcut h (sPos s) (sTy s) i _ _ (sPos s i) []); [done|done|done| |done| |].
        * intros b q Hbq. by apply (ci_prim _ _ _ _ _ _ I _ _ Hbq).
        * by intros j ?%elem_of_nil.
        * intros j _ E. unfold EnergyProofs.w. rewrite E. destruct (masked i j); by destruct (mt i j).
      + intros e2 j _. unfold EnergyProofs.w, pair_u. destruct (mt i j); [|ring]. destruct (masked i j); ring.
  Qed.
End System.

(** A sum over ordered pairs in which each unordered pair counts at most once. *)
Lemma sum_once (A : list nat) (mt : nat -> nat -> bool) (f : nat -> nat -> R) : NoDup A -> (forall i j, f i j = f j i) ->
  (forall i, mt i i = false) -> (forall i j, mt i j = true -> mt j i = false) ->
  sum_over A (fun i => sum_over A (fun j => if mt i j then f i j else 0)) =
  sum_over A (fun i => sum_over A (fun j => if decide (i < j)%nat then if mt i j || mt j i then f i j else 0 else 0)).
Proof.
  intros HA Hf H0 H1.
  transitivity (sum_over A (fun i => sum_over A (fun j => if decide (i < j)%nat then if mt i j then f i j else 0 else 0)) +
                sum_over A (fun i => sum_over A (fun j => if decide (j < i)%nat then if mt i j then f i j else 0 else 0))).
  - rewrite <- EnergyProofs.sum_plus. apply sum_ext. intros i _. rewrite <- EnergyProofs.sum_plus. apply sum_ext. intros j _.
    destruct (decide (i < j)%nat), (decide (j < i)%nat); try lia; try lra. assert (i = j) as -> by lia. rewrite H0. lra.
  - rewrite (sum_swap (fun i j => if decide (j < i)%nat then if mt i j then f i j else 0 else 0)), <- EnergyProofs.sum_plus. apply sum_ext. intros i _.
    rewrite <- EnergyProofs.sum_plus. apply sum_ext. intros j _. destruct (decide (i < j)%nat); [|lra]. rewrite (Hf j i).
    destruct (mt i j) eqn:E; [rewrite (H1 _ _ E); cbn; lra|]. cbn [orb]. destruct (mt j i); lra.
Qed.
