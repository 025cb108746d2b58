From stdpp Require Import gmap.
From Verif Require Import Base Vec3 BoxSpec McCellModel McCellSpec McCellProofs DomainModel DomainProofs SpeciesModel SpeciesProofs.
From Verif Require Import SpeciesBuild CellListModel CellListSpec CellListProofs PairListModel PairListSpec.
From Coq Require Import Reals Lra.
Local Open Scope R_scope.

Lemma zget_nat {A} (l : list A) (k : nat) x : l !! k = Some x -> zget l (Z.of_nat k) = Ok x.
Proof. intros H. apply zget_Ok. split; [lia|]. by rewrite Nat2Z.id. Qed.
Lemma zset_nat {A} (l : list A) (k : nat) x : (k < length l)%nat -> zset l (Z.of_nat k) x = Ok (<[k := x]> l).
Proof. intros H. unfold zset. rewrite decide_True by lia. unfold aset. rewrite Nat2Z.id. by rewrite decide_True. Qed.

(** ** Cells that are only ever added to *)
Section Fill.
  Context (M : nat).
  Definition fillc (xs : list nat) : cell :=
    Cell (map Some xs ++ replicate (M - length xs) None) (Z.of_nat (length xs)) (length xs) (length xs).
  Lemma fillc_atoms xs : cell_atoms (fillc xs) = xs.
  Proof.
    unfold cell_atoms, fillc. cbn [fc slots]. rewrite take_app_le by (by rewrite map_length).
    rewrite firstn_all2 by (by rewrite map_length). induction xs as [|x xs IH]; cbn; [done|]. f_equal. apply IH.
  Qed.
  Lemma fillc_add xs a : (length xs <= M)%nat ->
    cell_add M (fillc xs) a = if decide (length xs = M) then Throw else Ok (fillc (xs ++ [a]), length xs).
  Proof.
    intros Hl. unfold cell_add. cbn [McCellModel.fe fillc]. destruct (decide (length xs = M)) as [|Hne]; [done|].
    unfold aset. cbn [slots fillc]. rewrite app_length, map_length, replicate_length. rewrite decide_True by lia. cbn [obind].
    assert (<[length xs:=Some a]> (map Some xs ++ replicate (M - length xs) None)
            = map Some (xs ++ [a]) ++ replicate (M - length (xs ++ [a])) None) as ->.
    { rewrite insert_app_r_alt by (by rewrite map_length). rewrite map_length, Nat.sub_diag.
      destruct (M - length xs)%nat as [|k] eqn:E; [lia|]. cbn. rewrite map_app, app_length. cbn. rewrite <- app_assoc. cbn.
      do 3 f_equal. lia. }
    f_equal. f_equal. unfold fillc. rewrite app_length. cbn [length fc ncell].
    destruct (decide (length xs < M - 1)%nat).
    - rewrite decide_True by done. f_equal; lia.
    - f_equal; lia.
  Qed.
End Fill.

Section AddOnly.
  Context (M cap : nat) (toGen : vec3 R -> vec3 R) (n : vec3 Z).
  Notation ix := (ix toGen n).
  Definition here (pos : nat -> vec3 R) (xs : list nat) (j : Z) : list nat := filter (fun a => ix (pos a) = j) xs.
  Record ao (l : clist) (xs : list nat) (pos : nat -> vec3 R) : Prop := {
    ao_wf : gwf l n;
    ao_cap : length (clTags l) = cap;
    ao_cells : forall j c, clCells l !! j = Some c ->
      c = fillc M (here pos xs (Z.of_nat j)) /\ (length (here pos xs (Z.of_nat j)) <= M)%nat
  }.
  Lemma here_ext pos pos' xs j : (forall a, a ∈ xs -> pos a = pos' a) -> here pos xs j = here pos' xs j.
  Proof.
    induction xs as [|x xs IH]; intros H; [done|]. unfold here. rewrite !filter_cons.
    rewrite (H x) by left. fold (here pos xs j) (here pos' xs j). rewrite IH by (intros; apply H; by right). done.
  Qed.
  Lemma ao_ext l xs pos pos' : ao l xs pos -> (forall a, a ∈ xs -> pos a = pos' a) -> ao l xs pos'.
  Proof. intros [] H. split; [done..|]. intros j c Hc. rewrite <- (here_ext pos) by done. auto. Qed.

  Lemma ao_setup lens cutoff l pos : 0 < cutoff -> positive3 lens -> length (clTags l) = cap -> grid_of lens cutoff n ->
    exists l', cl_setup M lens cutoff l = Ok l' /\ ao l' [] pos.
  Proof.
    intros Hc (Hx & Hy & Hz) Hcap HG.
    assert (n = vmap (fun x => axis_num x cutoff) lens) as En.
    { assert (forall i, (i < 3)%nat -> vget n i = axis_num (vget lens i) cutoff) as E.
      { intros i Hi. destruct (HG i Hi) as (A1 & A2 & A3).
        assert (0 < vget lens i) as HLi by (destruct i as [|[|[|]]]; try lia; done).
        destruct (axis_num_count _ _ Hc HLi) as (B1 & B2 & B3). set (m := axis_num (vget lens i) cutoff) in *.
        assert (~ (vget n i < m)%Z).
        { intros Hlt. destruct B3 as [B3|B3]; [lia|]. assert (IZR (vget n i + 1) <= IZR m) by (apply IZR_le; lia). nra. }
        assert (~ (m < vget n i)%Z).
        { intros Hlt. destruct A3 as [A3|A3]; [lia|]. assert (IZR (m + 1) <= IZR (vget n i)) by (apply IZR_le; lia). nra. }
        lia. }
      apply vec3_ext. intros i Hi. rewrite E by done. destruct i as [|[|[|]]]; try lia; done. }
    assert (forall i, (i < 3)%nat -> (1 <= vget n i)%Z) as Hpos by (intros i Hi; apply HG, Hi).
    pose proof (Hpos 0%nat ltac:(lia)) as P0. pose proof (Hpos 1%nat ltac:(lia)) as P1. pose proof (Hpos 2%nat ltac:(lia)) as P2.
    cbn [vget] in P0, P1, P2.
    unfold cl_setup. destruct (Rle_dec cutoff 0); [lra|]. rewrite <- En. cbv zeta.
    rewrite bool_decide_eq_true_2 by nia. cbn [check obind]. eexists. split; [done|]. split.
    - split; try done; cbn; [ring|]. rewrite replicate_length. destruct (decide _); [rewrite replicate_length; lia|lia].
    - cbn. by rewrite replicate_length.
    - intros j c Hj. cbn in Hj. apply lookup_replicate_1 in Hj as [-> _]. split; [|unfold here; cbn; lia].
      unfold here, fillc. cbn. by rewrite Nat.sub_0_r.
  Qed.

  Lemma here_app pos xs ys j : here pos (xs ++ ys) j = here pos xs j ++ here pos ys j.
  Proof. unfold here. apply filter_app. Qed.

  Lemma ao_add l xs pos a : ao l xs pos -> (a < cap)%nat -> primary (toGen (pos a)) ->
    if decide (length (here pos xs (ix (pos a))) = M) then cl_add M toGen l a (pos a) = Throw
    else exists l', cl_add M toGen l a (pos a) = Ok l' /\ ao l' (xs ++ [a]) pos.
  Proof.
    intros A Ha Hp. pose proof (ao_wf _ _ _ A) as W.
    destruct (g_index _ _ W toGen (pos a) Hp) as [Ei Hg]. apply cidx_range in Hg as Hr.
    rewrite <- (g_tot _ _ W) in Hr. pose proof (g_cap _ _ W) as Hcap.
    fold (ix (pos a)) in Hr. set (k := ix (pos a)) in *.
    destruct (lookup_lt_is_Some_2 (clCells l) (Z.to_nat k) ltac:(lia)) as [c Hc].
    destruct (ao_cells _ _ _ A _ _ Hc) as [Ec Hl]. rewrite Z2Nat.id in Ec, Hl by lia.
    unfold cl_add. rewrite Ei. fold (ix (pos a)). fold k. unfold cl_cell_add.
    rewrite (proj2 (zget_Ok _ _ c) (conj (proj1 Hr) Hc)). cbn [obind].
    destruct (lookup_lt_is_Some_2 (clTags l) a ltac:(rewrite (ao_cap _ _ _ A); done)) as [tg Htg].
    unfold aget. rewrite Htg. cbn [obind]. subst c. rewrite fillc_add by done.
    destruct (decide (length (here pos xs k) = M)) as [Hfull|Hfull]; [done|]. cbn [obind].
    unfold zset. rewrite decide_True by lia. unfold aset. rewrite decide_True by lia. cbn [obind].
    rewrite decide_True by (pose proof (ao_cap _ _ _ A); lia). cbn [obind]. eexists. split; [done|].
    split.
    - apply gwf_put; [done|]. by rewrite insert_length.
    - cbn. rewrite insert_length. apply A.
    - intros j c. cbn [cl_put clCells]. rewrite here_app.
      assert (here pos [a] (Z.of_nat j) = if decide (k = Z.of_nat j) then [a] else []) as Ea.
      { unfold here. rewrite filter_cons. fold (ix (pos a)). fold k. destruct (decide _); done. }
      rewrite Ea. destruct (decide (j = Z.to_nat k)) as [->|Hj].
      + rewrite list_lookup_insert by lia. intros [= <-]. rewrite Z2Nat.id by lia. rewrite decide_True by done.
        split; [done|]. rewrite app_length. cbn. lia.
      + rewrite list_lookup_insert_ne by done. intros Hc2. rewrite decide_False by lia. rewrite app_nil_r.
        by apply (ao_cells _ _ _ A).
  Qed.
  Lemma here_le pos xs ys j : (length (here pos xs j) <= length (here pos (xs ++ ys) j))%nat.
  Proof. rewrite here_app, app_length. lia. Qed.

  Lemma ao_atoms l xs pos j : ao l xs pos -> (0 <= j < clTot l)%Z -> atoms_of (clCells l) j = here pos xs j.
  Proof.
    intros A Hj. pose proof (g_cap _ _ (ao_wf _ _ _ A)) as Hcap.
    destruct (lookup_lt_is_Some_2 (clCells l) (Z.to_nat j) ltac:(lia)) as [c Hc].
    destruct (ao_cells _ _ _ A _ _ Hc) as [-> _]. unfold atoms_of. rewrite Hc, fillc_atoms, Z2Nat.id by lia. done.
  Qed.

  (** the neighbour list of a cell *)
  Definition nbs (pos : nat -> vec3 R) (xs : list nat) (c : vec3 Z) : list nat :=
    here pos xs (cidx n c) ++ flat_map (here pos xs) (others (cidx n c) (nbr n c)).
  Lemma ao_neighbors l xs pos c : ao l xs pos -> in_grid n c ->
    cell_neighbors M l (cidx n c) = Ok (nbs pos xs c, length (here pos xs (cidx n c))).
  Proof.
    intros A Hc. pose proof (ao_wf _ _ _ A) as W.
    assert (0 <= cidx n c < clTot l)%Z as Hi by (rewrite (g_tot _ _ W); by apply cidx_range).
    rewrite (neighbors_eq M l n c W Hc).
    - unfold nbs. rewrite (ao_atoms l xs pos) by done. do 3 f_equal.
      assert (forall js, (forall j, j ∈ js -> (0 <= j < clTot l)%Z) ->
        flat_map (atoms_of (clCells l)) js = flat_map (here pos xs) js) as HE.
      { induction js as [|j js IH]; intros Hj; [done|]. cbn. rewrite (ao_atoms l xs pos) by (try done; apply Hj; left).
        rewrite IH by (intros; apply Hj; by right). done. }
      apply HE. intros j Hj. apply elem_of_list_filter in Hj as [_ Hj]. by eapply nbr_range.
    - intros j Hj. rewrite (ao_atoms l xs pos) by done. pose proof (g_cap _ _ W) as Hcap.
      destruct (lookup_lt_is_Some_2 (clCells l) (Z.to_nat j) ltac:(lia)) as [c2 Hc2].
      destruct (ao_cells _ _ _ A _ _ Hc2) as [_ Hl]. by rewrite Z2Nat.id in Hl by lia.
  Qed.
  Lemma nbs_elem l xs pos c a : gwf l n -> in_grid n c -> (forall a, a ∈ xs -> primary (toGen (pos a))) ->
    a ∈ nbs pos xs c <-> a ∈ xs /\ adjacent n c (ccell n (toGen (pos a))).
  Proof.
    intros W Hc Hp. unfold nbs, here. rewrite elem_of_app, elem_flat_map. setoid_rewrite elem_of_list_filter. split.
    - intros [[E Ha]|(j & Hj & <- & Ha)]; (split; [done|]).
      + destruct (g_index _ _ W toGen (pos a) (Hp a Ha)) as [_ Hg]. apply cidx_inj in E; [|done..]. rewrite E.
        intros i Hi. exists 0%Z. lia.
      + destruct Hj as [_ Hj]. destruct (g_index _ _ W toGen (pos a) (Hp a Ha)) as [_ Hg].
        by apply (nbr_adjacent _ _ W).
    - intros [Ha Hadj]. destruct (g_index _ _ W toGen (pos a) (Hp a Ha)) as [_ Hg].
      apply (nbr_adjacent _ _ W) in Hadj; [|done..]. destruct (decide (ix (pos a) = cidx n c)); [by left|right].
      exists (ix (pos a)). done.
  Qed.
  Lemma nbs_nodup l xs pos c : gwf l n -> in_grid n c -> NoDup xs -> NoDup (nbs pos xs c).
  Proof.
    intros W Hc Hnd. unfold nbs. apply NoDup_app. split; [by apply NoDup_filter|]. split.
    - intros a Ha Hb. apply elem_flat_map in Hb as (j & Hj & Hb).
      apply elem_of_list_filter in Hj as [Hne _]. apply elem_of_list_filter in Ha as [E1 _], Hb as [E2 _]. congruence.
    - apply nodup_flat_map.
      + apply NoDup_filter. by eapply nbr_nodup.
      + intros j _. by apply NoDup_filter.
      + intros j k a _ _ H1 H2. apply elem_of_list_filter in H1 as [E1 _], H2 as [E2 _]. congruence.
  Qed.
End AddOnly.

(** ** Arrays of the pair list *)
Section Build.
  Context (dist2 : vec3 R -> vec3 R -> R) (masked : nat -> nat -> bool).
  Context (pos : nat -> vec3 R) (A Pc : nat) (cut : R).

  Definition static (p : plist) :=
    (pCells p, pSkin p, pCut p, pAcap p, pPcap p, pMaxN p, pMaxN2 p, pCount p, pInit p).
  Local Notation grp := (nat * list nat)%type.
  Definition flat (G : list grp) : list nat := concat (map snd G).
  Definition condb (i j : nat) : bool :=
    bool_decide (i < j)%nat && negb (masked i j) && (if Rlt_dec (dist2 (pos i) (pos j)) (cut * cut) then true else false).

  Record rep (G : list grp) (L : list nat) (i : nat) (js : list nat) (nn : nat) (p : plist) : Prop := {
    r_acap : pAcap p = Z.of_nat A;  r_pcap : pPcap p = Z.of_nat Pc;  r_cut : pCut p = cut;
    r_la1 : length (pA1 p) = A;  r_la2 : length (pA2 p) = Pc;
    r_lf : length (pFirst p) = S A;  r_lo : length (pOld p) = A;
    r_n1 : pN1 p = Z.of_nat (length G);
    r_n2 : pN2 p = Z.of_nat (length (flat G) + length js);
    r_n : pN p = Z.of_nat nn;
    r_t : pT p = (Z.of_nat A - 1 - Z.of_nat (length L))%Z;
    r_a1 : forall k x, G !! k = Some x -> pA1 p !! k = Some (Some x.1) /\ pOld p !! k = Some (pos x.1);
    r_f : forall k, (k <= length G)%nat -> pFirst p !! k = Some (Z.of_nat (length (flat (take k G))));
    r_a2 : forall k j, (flat G ++ js) !! k = Some j -> pA2 p !! k = Some (Some j);
    r_l : forall k x, L !! k = Some x -> pA1 p !! (A - 1 - k)%nat = Some (Some x) /\ pOld p !! (A - 1 - k)%nat = Some (pos x);
    r_i : js <> [] -> pA1 p !! length G = Some (Some i) /\ pOld p !! length G = Some (pos i);
    r_cap : (nn <= A)%nat;  r_cap2 : (length (flat G) + length js <= Pc)%nat
  }.

  Lemma pair_false i j p found : pCut p = cut -> condb i j = false ->
    pl_pair dist2 masked pos i (p, found) j = Ok (p, found).
  Proof.
    intros Hc H. unfold pl_pair, condb in *. rewrite Hc. destruct (decide (i < j)%nat); [|done].
    rewrite bool_decide_eq_true_2 in H by done. destruct (masked i j); [done|]. by destruct (Rlt_dec _ _).
  Qed.
  Lemma pair_true G L i js nn p j : rep G L i js nn p -> (length G + length L < nn)%nat -> condb i j = true ->
    if decide (length (flat G) + length js < Pc)%nat then
      exists p', pl_pair dist2 masked pos i (p, bool_decide (js <> [])) j = Ok (p', true) /\
        rep G L i (js ++ [j]) nn p' /\ static p' = static p
    else pl_pair dist2 masked pos i (p, bool_decide (js <> [])) j = Throw.
  Proof.
    intros H Hnn Hc. pose proof H as [hacap hpcap hcut hla1 hla2 hlf hlo hn1 hn2 hn ht ha1 hf ha2 hl hi hcap hcap2]. unfold condb in Hc.
    destruct (bool_decide (i < j)%nat) eqn:E1; [|done]. apply bool_decide_eq_true in E1.
    destruct (masked i j) eqn:E2; [done|]. destruct (Rlt_dec _ _) as [E3|] eqn:E4; [|done].
    unfold pl_pair. destruct (decide (i < j)%nat) as [_|]; [|lia]. rewrite E2. rewrite hcut. rewrite E4.
    rewrite hpcap, hn2.
    destruct (decide (length (flat G) + length js < Pc)%nat) as [Hlt|Hlt]; [|by rewrite decide_True by lia].
    rewrite decide_False by lia.
    set (p1 := if bool_decide (js <> []) then Ok p else _).
    assert (exists a1 old, p1 = Ok (pl_put p a1 (pA2 p) (pFirst p) old (pN1 p) (pN2 p) (pN p) (pT p)) /\
      length a1 = A /\ length old = A /\ a1 !! length G = Some (Some i) /\ old !! length G = Some (pos i) /\
      (forall k, k <> length G -> a1 !! k = pA1 p !! k /\ old !! k = pOld p !! k)) as (a1 & old & Ep1 & HA1 & HA2 & HA3 & HA4 & HA5).
    { unfold p1. destruct (bool_decide (js <> [])) eqn:Ej.
      - apply bool_decide_eq_true in Ej. exists (pA1 p), (pOld p). split; [by destruct p|].
        destruct (hi Ej). done.
      - rewrite hn1, ?hn2. rewrite !zset_nat by lia. cbn [obind]. eexists _, _. split; [done|].
        rewrite !insert_length, !list_lookup_insert by lia. do 4 (split; [done|]).
        intros k Hk. by rewrite !list_lookup_insert_ne. }
    rewrite Ep1. cbn [obind]. cbn [pl_put pA2 pN2 pA1 pFirst pOld pN1 pN pT]. rewrite hn2. rewrite zset_nat by lia. cbn [obind].
    eexists. split; [done|]. split; [|done].
    split; cbn [pl_put pAcap pPcap pCut pA1 pA2 pFirst pOld pN1 pN2 pN pT]; try done.
    - by rewrite insert_length.
    - rewrite app_length. cbn. lia.
    - intros k x Hk. apply lookup_lt_Some in Hk as Hk'. destruct (HA5 k ltac:(lia)) as [-> ->]. by apply ha1.
    - intros k x. rewrite app_assoc. destruct (decide (k = length (flat G) + length js)%nat) as [->|Hk].
      + rewrite lookup_app_r by (rewrite app_length; lia). rewrite app_length, Nat.sub_diag. cbn. intros [= <-].
        rewrite list_lookup_insert by lia. done.
      + intros Hx. apply lookup_lt_Some in Hx as Hx'. rewrite !app_length in Hx'. cbn in Hx'.
        rewrite lookup_app_l in Hx by (rewrite app_length; lia). rewrite list_lookup_insert_ne by lia. by apply ha2.
    - intros k x Hk. apply lookup_lt_Some in Hk as Hk'. destruct (HA5 (A - 1 - k)%nat ltac:(lia)) as [-> ->]. by apply hl.
    - rewrite app_length. cbn. lia.
  Qed.

  Lemma pairs_fold G L i nn nb : forall js p, rep G L i js nn p -> (length G + length L < nn)%nat ->
    let js' := js ++ filter (fun j => condb i j = true) nb in
    if decide (length (flat G) + length js' <= Pc)%nat then
      exists p', foldM (pl_pair dist2 masked pos i) (p, bool_decide (js <> [])) nb = Ok (p', bool_decide (js' <> [])) /\
        rep G L i js' nn p' /\ static p' = static p
    else foldM (pl_pair dist2 masked pos i) (p, bool_decide (js <> [])) nb = Throw.
  Proof.
    induction nb as [|j nb IH]; intros js p H Hnn; cbn zeta.
    - cbn [filter list_filter]. rewrite app_nil_r. rewrite decide_True by apply (r_cap2 _ _ _ _ _ _ H). by exists p.
    - cbn [foldM]. destruct (condb i j) eqn:Ec.
      + rewrite filter_cons_True by done. pose proof (pair_true G L i js nn p j H Hnn Ec) as HP.
        destruct (decide (length (flat G) + length js < Pc)%nat) as [Hlt|Hge].
        * destruct HP as (p' & -> & H' & Es). cbn [obind].
          specialize (IH (js ++ [j]) p' H' Hnn). cbn zeta in IH. rewrite <- app_assoc in IH. cbn [app] in IH.
          rewrite (bool_decide_eq_true_2 (js ++ [j] <> [])) in IH by (by destruct js).
          destruct (decide _); [|done]. destruct IH as (p'' & -> & H'' & Es'). exists p''. split; [done|]. split; [done|congruence].
        * rewrite HP. cbn [obind]. rewrite decide_False; [done|]. rewrite app_length. cbn. lia.
      + rewrite filter_cons_False by (by rewrite Ec). rewrite (pair_false i j p _ (r_cut _ _ _ _ _ _ H) Ec). cbn [obind]. by apply IH.
  Qed.

  Lemma flat_app G1 G2 : flat (G1 ++ G2) = flat G1 ++ flat G2.
  Proof. unfold flat. by rewrite map_app, concat_app. Qed.

  Lemma flat_one (i : nat) (js : list nat) : flat [(i, js)] = js.
  Proof. unfold flat. cbn. apply app_nil_r. Qed.

  (** one atom *)
  Definition add_grp (G : list grp) (i : nat) (js : list nat) := if bool_decide (js <> []) then G ++ [(i, js)] else G.
  Definition add_lone (L : list nat) (i : nat) (js : list nat) := if bool_decide (js <> []) then L else L ++ [i].
  Lemma flat_add G i js : flat (add_grp G i js) = flat G ++ js.
  Proof.
    unfold add_grp. destruct (bool_decide (js <> [])) eqn:E.
    - rewrite flat_app. unfold flat. cbn. by rewrite app_nil_r.
    - apply bool_decide_eq_false, dec_stable in E as ->. by rewrite app_nil_r.
  Qed.
  Lemma len_add G L i js : (length (add_grp G i js) + length (add_lone L i js) = length G + length L + 1)%nat.
  Proof. unfold add_grp, add_lone. destruct (bool_decide _); rewrite app_length; cbn; lia. Qed.

  Lemma atom_step G L i0 p i nb : rep G L i0 [] (length G + length L) p ->
    let js := filter (fun j => condb i j = true) nb in
    let G' := add_grp G i js in let L' := add_lone L i js in
    if decide (length G' + length L' <= A /\ length (flat G') <= Pc)%nat then
      exists p', pl_atom dist2 masked pos nb p i = Ok p' /\ rep G' L' i [] (length G' + length L') p' /\ static p' = static p
    else pl_atom dist2 masked pos nb p i = Throw.
  Proof.
    intros H js G' L'. subst G' L'. rewrite len_add, flat_add, app_length. unfold pl_atom. 
    rewrite (r_n _ _ _ _ _ _ H), (r_acap _ _ _ _ _ _ H).
    destruct (decide (length G + length L + 1 <= A)%nat) as [Hn|Hn].
    2:{ destruct (decide (_ /\ _)) as [[]|_]; [lia|]. by rewrite decide_True by lia. }
    destruct (decide (Z.of_nat A < _)%Z) as [|_]; [lia|]. cbv zeta.
    set (p0 := pl_put p _ _ _ _ _ _ _ _).
    assert (rep G L i [] (length G + length L + 1) p0) as H0.
    { destruct H. split; cbn; try done. lia. }
    pose proof (pairs_fold G L i (length G + length L + 1) nb [] p0 H0 ltac:(lia)) as HF. cbn zeta in HF. cbn [app] in HF.
    fold js in HF. change (bool_decide ([] <> [])) with false in HF.
    assert (bool_decide (@nil nat <> []) = false) as Eb by done. 
    destruct (decide (length (flat G) + length js <= Pc)%nat) as [Hp|Hp].
    2:{ rewrite HF. cbn [obind]. destruct (decide _) as [[]|_]; [lia|done]. }
    destruct (decide (_ /\ _)) as [_|[]]; [|by split; lia]. destruct HF as (p1 & -> & H1 & Es). cbn [obind]. clear H0.
    pose proof H1 as [hacap hpcap hcut hla1 hla2 hlf hlo hn1 hn2 hn ht ha1 hf ha2 hl hi hcap hcap2]. unfold add_grp, add_lone.
    destruct (bool_decide (js <> [])) eqn:Ej.
    - apply bool_decide_eq_true in Ej. rewrite hn1, hn2.
      replace (Z.of_nat (length G) + 1)%Z with (Z.of_nat (length G + 1)) by lia. rewrite zset_nat by lia. cbn [obind].
      eexists. split; [done|]. split; [|unfold static in *; cbn in *; congruence].
      split; cbn [pl_put pAcap pPcap pCut pA1 pA2 pFirst pOld pN1 pN2 pN pT]; try done.
      + by rewrite insert_length.
      + rewrite app_length. done.
      + rewrite flat_app, flat_one, app_length. cbn [length]. lia.
      + intros k x Hk. destruct (decide (k = length G)) as [->|Hne].
        * rewrite lookup_app_r, Nat.sub_diag in Hk by lia. cbn in Hk. injection Hk as <-. by apply hi.
        * apply lookup_lt_Some in Hk as Hk'. rewrite app_length in Hk'. cbn in Hk'. rewrite lookup_app_l in Hk by lia. by apply ha1.
      + intros k Hk. rewrite app_length in Hk. cbn in Hk. destruct (decide (k = length G + 1)%nat) as [->|Hne].
        * rewrite list_lookup_insert by lia. rewrite firstn_all2 by (rewrite app_length; cbn; lia).
          rewrite flat_app, flat_one, app_length. done.
        * rewrite list_lookup_insert_ne by lia. rewrite take_app_le by lia. apply hf. lia.
      + intros k j Hj. rewrite app_nil_r, flat_app in Hj. apply ha2. by rewrite flat_one in Hj.
      + rewrite flat_app, flat_one, app_length. cbn [length]. lia.
    - apply bool_decide_eq_false, dec_stable in Ej. rewrite Ej in *. rewrite ht.
      replace (Z.of_nat A - 1 - Z.of_nat (length L))%Z with (Z.of_nat (A - 1 - length L)) by lia.
      rewrite !zset_nat by lia. cbn [obind]. eexists. split; [done|]. split; [|unfold static in *; cbn in *; congruence].
      split; cbn [pl_put pAcap pPcap pCut pA1 pA2 pFirst pOld pN1 pN2 pN pT]; try done.
      + by rewrite insert_length.
      + by rewrite insert_length.
      + rewrite app_length. cbn. lia.
      + intros k x Hk. apply lookup_lt_Some in Hk as Hk'. rewrite !list_lookup_insert_ne by lia. by apply ha1.
      + intros k x Hk. destruct (decide (k = length L)) as [->|Hne].
        * rewrite lookup_app_r, Nat.sub_diag in Hk by lia. cbn in Hk. injection Hk as <-. by rewrite !list_lookup_insert by lia.
        * apply lookup_lt_Some in Hk as Hk'. rewrite app_length in Hk'. cbn in Hk'. rewrite lookup_app_l in Hk by lia.
          rewrite !list_lookup_insert_ne by lia. by apply hl.
  Qed.

  (** a sequence of atoms, each with its neighbour list *)
  Definition cjs (x : nat * list nat) : list nat := filter (fun j => condb x.1 j = true) x.2.
  Definition gstep (s : list grp * list nat) (x : nat * list nat) : list grp * list nat :=
    (add_grp s.1 x.1 (cjs x), add_lone s.2 x.1 (cjs x)).
  Definition gall (s : list grp * list nat) (V : list (nat * list nat)) := fold_left gstep V s.
  Lemma gall_len V : forall s, (length (gall s V).1 + length (gall s V).2 = length s.1 + length s.2 + length V)%nat.
  Proof.
    induction V as [|x V IH]; intros s; cbn; [lia|]. unfold gall in IH. rewrite IH. cbn [gstep fst snd].
    pose proof (len_add s.1 s.2 x.1 (cjs x)). lia.
  Qed.
  Lemma gall_flat V : forall s, flat (gall s V).1 = flat s.1 ++ flat_map cjs V.
  Proof.
    induction V as [|x V IH]; intros s; cbn; [by rewrite app_nil_r|]. unfold gall in IH. rewrite IH. cbn [gstep fst].
    by rewrite flat_add, <- app_assoc.
  Qed.

  Definition vstep (p : plist) (x : nat * list nat) : outcome plist := pl_atom dist2 masked pos x.2 p x.1.
  Lemma visit_fold V : forall G L i0 p, rep G L i0 [] (length G + length L) p ->
    let s := gall (G, L) V in
    if decide (length s.1 + length s.2 <= A /\ length (flat s.1) <= Pc)%nat then
      exists i p', foldM vstep p V = Ok p' /\ rep s.1 s.2 i [] (length s.1 + length s.2) p' /\ static p' = static p
    else foldM vstep p V = Throw.
  Proof.
    induction V as [|x V IH]; intros G L i0 p H; cbn zeta.
    - cbn [gall fold_left fst snd foldM]. rewrite decide_True; [by exists i0, p|]. split; [apply H|].
      pose proof (r_cap2 _ _ _ _ _ _ H). cbn in *. lia.
    - pose proof (atom_step G L i0 p x.1 x.2 H) as HA. cbn zeta in HA. fold (cjs x) in HA.
      set (G1 := add_grp G x.1 (cjs x)) in *. set (L1 := add_lone L x.1 (cjs x)) in *.
      change (gall (G, L) (x :: V)) with (gall (G1, L1) V).
      change (foldM vstep p (x :: V)) with (let? q := pl_atom dist2 masked pos x.2 p x.1 in foldM vstep q V).
      pose proof (gall_len V (G1, L1)) as E1. pose proof (gall_flat V (G1, L1)) as E2. cbn [fst snd] in E1, E2.
      destruct (decide (length G1 + length L1 <= A /\ length (flat G1) <= Pc)%nat) as [Hd|Hd].
      + destruct HA as (p1 & -> & H1 & Es). cbn [obind].
        specialize (IH _ _ _ _ H1). cbn zeta in IH.
        destruct (decide _) as [Hd2|Hd2]; [|done].
        destruct IH as (i & p' & E & H' & Es'). exists i, p'. split; [done|]. split; [done|congruence].
      + rewrite HA. cbn [obind]. destruct (decide _) as [[K1 K2]|_]; [|done]. exfalso. apply Hd.
        rewrite E2, app_length in K2. lia.
  Qed.

  (** pairs stored *)
  Definition gpairs (G : list grp) : list (nat * nat) := flat_map (fun x => map (pair x.1) x.2) G.
  Lemma gpairs_length G : length (gpairs G) = length (flat G).
  Proof.
    induction G as [|[i js] G IH]; [done|]. change (gpairs ((i, js) :: G)) with (map (pair i) js ++ gpairs G).
    change (flat ((i, js) :: G)) with (js ++ flat G). rewrite !app_length, map_length, IH. done.
  Qed.
  Lemma gpairs_elem V i j : forall s, (i, j) ∈ gpairs (gall s V).1 <->
    (i, j) ∈ gpairs s.1 \/ exists nb, (i, nb) ∈ V /\ j ∈ nb /\ condb i j = true.
  Proof.
    assert (forall G a js, (i, j) ∈ gpairs (add_grp G a js) <-> (i, j) ∈ gpairs G \/ (a = i /\ j ∈ js)) as HA.
    { intros G a js. unfold add_grp. destruct (bool_decide (js <> [])) eqn:E.
      - unfold gpairs. rewrite flat_map_app, elem_of_app. cbn. rewrite app_nil_r. rewrite elem_of_list_fmap.
        split; (intros [H|H]; [by left|right]).
        + destruct H as (y & [= -> ->] & Hy). done.
        + destruct H as [-> H]. eauto.
      - apply bool_decide_eq_false, dec_stable in E as ->. split; [by left|]. intros [H|[_ H]]; [done|by apply elem_of_nil in H]. }
    induction V as [|[a nb] V IH]; intros s; cbn [gall fold_left].
    - split; [by left|]. intros [H|(? & H & _)]; [done|by apply elem_of_nil in H].
    - unfold gall in IH. rewrite IH. cbn [gstep fst snd]. rewrite HA. unfold cjs. cbn [fst snd]. rewrite elem_of_list_filter.
      setoid_rewrite elem_of_cons. split.
      + intros [[H|(-> & Hc & Hj)]|(nb' & H & Hj)]; [by left|right; exists nb; by auto|right; exists nb'; by auto].
      + intros [H|(nb' & [[= -> ->]|H] & Hj & Hc)]; [by left; left|left; right; auto|right; eauto].
  Qed.
  Lemma gall_members V a : forall s, a ∈ map fst (gall s V).1 \/ a ∈ (gall s V).2 <->
    a ∈ map fst s.1 \/ a ∈ s.2 \/ a ∈ map fst V.
  Proof.
    induction V as [|x V IH]; intros s; cbn [gall fold_left map].
    - rewrite elem_of_nil. tauto.
    - unfold gall in IH. rewrite IH. cbn [gstep fst snd]. unfold add_grp, add_lone. rewrite elem_of_cons.
      destruct (bool_decide _); [rewrite map_app, elem_of_app; cbn; rewrite elem_of_list_singleton; tauto|].
      rewrite elem_of_app, elem_of_list_singleton. tauto.
  Qed.
  Lemma gpairs_nodup V : forall s, NoDup (map fst V) -> (forall x, x ∈ V -> NoDup x.2) ->
    (forall a, a ∈ map fst V -> a ∉ map fst s.1) -> NoDup (gpairs s.1) -> NoDup (gpairs (gall s V).1).
  Proof.
    induction V as [|x V IH]; intros s Hv Hn Hd Hs; [done|]. cbn [gall fold_left]. cbn [map] in Hv.
    apply NoDup_cons in Hv as [Hx Hv]. apply IH; [done|intros; apply Hn; by right| |].
    - intros a Ha. cbn [gstep fst]. unfold add_grp. destruct (bool_decide _); [|by apply Hd; right].
      rewrite map_app, elem_of_app. cbn. rewrite elem_of_list_singleton. intros [H|H]; [by apply (Hd a); [right|]|]. subst a. done.
    - cbn [gstep fst]. unfold add_grp. destruct (bool_decide _); [|done]. unfold gpairs. rewrite flat_map_app. cbn. rewrite app_nil_r.
      apply NoDup_app. split; [done|]. split.
      + intros [a b] Ha Hb. apply elem_of_list_fmap in Hb as (y & [= -> ->] & _).
        apply elem_flat_map in Ha as ([a js] & H1 & H2). apply elem_of_list_fmap in H2 as (y' & [= E ->] & _). cbn in E.
        apply (Hd x.1); [left|]. rewrite E. by apply (elem_of_list_fmap_1 fst _ (a, js)).
      + apply NoDup_fmap_2_strong; [by intros ?? _ _ [= ->]|]. apply NoDup_filter. apply Hn. left.
  Qed.
  Lemma grp_nonempty V : forall s, Forall (fun g : grp => g.2 <> []) s.1 -> Forall (fun g : grp => g.2 <> []) (gall s V).1.
  Proof.
    induction V as [|x V IH]; intros s H; [done|]. cbn [gall fold_left]. apply IH. cbn [gstep fst]. unfold add_grp.
    destruct (bool_decide _) eqn:E; [|done]. apply bool_decide_eq_true in E. apply Forall_app. split; [done|]. by constructor.
  Qed.
End Build.

(** ** Iteration *)
Section Iterate.
  Local Notation grp := (nat * list nat)%type.
  Lemma iter_groups pos A Pc cut G L i0 p : rep pos A Pc cut G L i0 [] (length G + length L) p ->
    Forall (fun g : grp => g.2 <> []) G ->
    forall fuel k r, (length (flat (drop k G)) - r < fuel)%nat -> (k <= length G)%nat ->
      match G !! k with Some g => (r < length g.2)%nat | None => r = 0%nat end ->
      it_loop fuel (PIter (pA1 p) (pA2 p) (pFirst p) (pN1 p) (pN2 p) (Z.of_nat k) (Z.of_nat (length (flat (take k G)) + r))) =
      Ok (Some (map (fun x => (Some x.1, Some x.2)) (drop r (gpairs (drop k G))))).
  Proof.
    intros H HF. pose proof H as [hacap hpcap hcut hla1 hla2 hlf hlo hn1 hn2 hn ht ha1 hf ha2 hl hi hcap hcap2]. cbn [length] in hn2. rewrite Nat.add_0_r in hn2. rewrite hn2.
    induction fuel as [|fuel IH]; intros k r Hfuel Hk Hr; [lia|].
    cbn [it_loop]. unfold it_end. cbn [itI2 itN2].
    assert (length (flat G) = length (flat (take k G)) + length (flat (drop k G)))%nat as Elen.
    { rewrite <- app_length, <- flat_app, take_drop. done. }
    destruct (G !! k) as [[a bs]|] eqn:Hg.
    - cbn [snd] in Hr. apply lookup_lt_Some in Hg as Hlt.
      pose proof (drop_S _ _ _ Hg) as ED. rewrite ED in Elen, Hfuel |- *.
      assert (flat ((a, bs) :: drop (S k) G) = bs ++ flat (drop (S k) G)) as Ef by done.
      rewrite Ef, app_length in Elen, Hfuel.
      rewrite bool_decide_eq_false_2 by lia.
      unfold it_pair. cbn [itA1 itI1 itA2 itI2].
      rewrite (zget_nat _ _ _ (proj1 (ha1 _ _ Hg))). cbn [obind fst].
      destruct (lookup_lt_is_Some_2 bs r Hr) as [b Hb].
      assert ((flat G ++ []) !! (length (flat (take k G)) + r)%nat = Some b) as Hb2.
      { assert (flat G = flat (take k G) ++ flat (drop k G)) as EG by (by rewrite <- flat_app, take_drop).
        rewrite app_nil_r. rewrite EG, ED, Ef, lookup_app_r by lia.
        rewrite lookup_app_l by lia. by replace (length (flat (take k G)) + r - length (flat (take k G)))%nat with r by lia. }
      rewrite (zget_nat _ _ _ (ha2 _ _ Hb2)). cbn [obind].
      assert (gpairs ((a, bs) :: drop (S k) G) = map (pair a) bs ++ gpairs (drop (S k) G)) as Eg by done.
      assert (drop r (gpairs ((a, bs) :: drop (S k) G)) = (a, b) :: drop (S r) (gpairs ((a, bs) :: drop (S k) G))) as Edrop.
      { apply drop_S. rewrite Eg, lookup_app_l by (rewrite map_length; lia). rewrite list_lookup_fmap, Hb. done. }
      rewrite Edrop. cbn [map fst snd].
      unfold it_next. cbn [itI2 itFirst itI1 itA1 itA2 itN1 itN2].
      assert (flat (take (S k) G) = flat (take k G) ++ bs) as Et.
      { rewrite (take_S_r _ _ _ Hg), flat_app. by rewrite flat_one. }
      replace (Z.of_nat k + 1)%Z with (Z.of_nat (S k)) by lia.
      rewrite (zget_nat _ _ _ (hf (S k) ltac:(lia))). cbn [obind]. rewrite Et, app_length.
      destruct (decide (S r = length bs)) as [Elast|Hnl].
      + destruct (decide _) as [_|]; [|lia]. cbn [obind].
        specialize (IH (S k) 0%nat). rewrite Et, app_length in IH.
        replace (Z.of_nat (length (flat (take k G)) + r) + 1)%Z with (Z.of_nat (length (flat (take k G)) + length bs + 0)) by lia.
        rewrite IH; [|lia|lia|].
        * cbn [obind fmap option_fmap option_map]. do 3 f_equal. rewrite drop_0. rewrite Eg, Elast.
          rewrite drop_app_alt by (by rewrite map_length). done.
        * destruct (G !! S k) as [g|] eqn:Hg2; [|done]. rewrite Forall_lookup in HF. specialize (HF _ _ Hg2).
          destruct g.2; [done|cbn; lia].
      + destruct (decide _) as [|_]; [lia|]. cbn [obind].
        replace (Z.of_nat (length (flat (take k G)) + r) + 1)%Z with (Z.of_nat (length (flat (take k G)) + S r)) by lia.
        rewrite (IH k (S r)); [|rewrite ED, Ef, app_length; lia|lia|rewrite Hg; cbn; lia].
        cbn [obind fmap option_fmap option_map]. rewrite ED. done.
    - apply lookup_ge_None in Hg. assert (k = length G) as -> by lia. rewrite Hr. rewrite drop_all. cbn.
      rewrite firstn_all. rewrite bool_decide_eq_true_2 by lia. done.
  Qed.
  Lemma rep_visits pos A Pc cut G L i0 p : rep pos A Pc cut G L i0 [] (length G + length L) p ->
    Forall (fun g : grp => g.2 <> []) G -> visits p (gpairs G).
  Proof.
    intros H HF fuel Hfuel. rewrite gpairs_length in Hfuel. pose proof (iter_groups pos A Pc cut G L i0 p H HF fuel 0 0) as E.
    cbn [take flat concat map length Nat.add] in E. rewrite drop_0 in E. rewrite drop_0 in E. apply E; [lia|lia|].
    destruct (G !! 0%nat) as [g|] eqn:Hg; [|done]. rewrite Forall_lookup in HF. specialize (HF _ _ Hg).
    destruct g.2; [done|cbn; lia].
  Qed.
End Iterate.

(** ** Building from the atoms of a system *)
Section Refresh.
  Context (M cap : nat) (toGen : vec3 R -> vec3 R) (dist2 : vec3 R -> vec3 R -> R) (wrap : vec3 R -> vec3 R) (lens : vec3 R).
  Context (masked : nat -> nat -> bool) (n : vec3 Z) (A Pc : nat).
  Notation ix := (ix toGen n).
  Notation here := (here toGen n).
  Notation ao := (ao M cap toGen n).
  Notation nbs := (nbs toGen n).

  Record ready (p : plist) : Prop := {
    rd_init : pInit p = true;
    rd_acap : pAcap p = Z.of_nat A;  rd_pcap : pPcap p = Z.of_nat Pc;
    rd_la1 : length (pA1 p) = A;  rd_la2 : length (pA2 p) = Pc;
    rd_lf : length (pFirst p) = S A;  rd_lo : length (pOld p) = A;
    rd_tags : length (clTags (pCells p)) = cap;
    rd_cut : 0 < pCut p
  }.

  Lemma pair_cells pos i s j s' : pl_pair dist2 masked pos i s j = Ok s' -> pCells s'.1 = pCells s.1.
  Proof.
    destruct s as [p found]. unfold pl_pair. destruct (decide _); [|by intros [= <-]]. destruct (masked i j); [by intros [= <-]|].
    destruct (Rlt_dec _ _); [|by intros [= <-]]. destruct (decide _); [done|].
    intros (p1 & H1 & H2)%obind_Ok. apply obind_Ok in H2 as (a2 & _ & [= <-]). cbn.
    destruct found; [by injection H1 as <-|]. apply obind_Ok in H1 as (a1 & _ & (old & _ & [= <-])%obind_Ok). done.
  Qed.
  Lemma pairs_cells pos i nb : forall s s', foldM (pl_pair dist2 masked pos i) s nb = Ok s' -> pCells s'.1 = pCells s.1.
  Proof.
    induction nb as [|j nb IH]; intros s s'; cbn [foldM]; [by intros [= <-]|]. intros (s1 & H1 & H2)%obind_Ok.
    apply IH in H2. apply pair_cells in H1. congruence.
  Qed.
  Lemma atom_cells pos p x p' : vstep dist2 masked pos p x = Ok p' -> pCells p' = pCells p.
  Proof.
    unfold vstep, pl_atom. destruct (decide _); [done|]. cbv zeta. intros ([p1 found] & H1 & H2)%obind_Ok.
    apply pairs_cells in H1. cbn in H1. destruct found.
    - apply obind_Ok in H2 as (f & _ & [= <-]). done.
    - apply obind_Ok in H2 as (a1 & _ & (old & _ & [= <-])%obind_Ok). done.
  Qed.
  Lemma atoms_cells pos V : forall p p', foldM (vstep dist2 masked pos) p V = Ok p' -> pCells p' = pCells p.
  Proof.
    induction V as [|x V IH]; intros p p'; cbn [foldM]; [by intros [= <-]|]. intros (p1 & H1 & H2)%obind_Ok.
    apply IH in H2. apply atom_cells in H1. congruence.
  Qed.

  Lemma seq_fold {S} (f : S -> nat -> outcome S) xs ys : forall k pre s, length pre = k ->
    foldM (fun p ip => let? i := aget (pre ++ xs ++ ys) ip in f p i) s (seq k (length xs)) = foldM f s xs.
  Proof.
    induction xs as [|x xs IH]; intros k pre s Hk; [done|]. cbn [seq length foldM].
    unfold aget at 1. rewrite lookup_app_r by lia. rewrite <- Hk, Nat.sub_diag. cbn [app lookup list_lookup obind].
    destruct (f s x) as [s'| |]; cbn [obind]; [|done..]. rewrite Hk.
    specialize (IH (Datatypes.S k) (pre ++ [x]) s'). rewrite <- app_assoc in IH. cbn [app] in IH. apply IH.
    rewrite app_length. cbn. lia.
  Qed.

  (** atoms visited, with their neighbours *)
  Definition cellV (pos : nat -> vec3 R) (xs : list nat) (c : vec3 Z) : list (nat * list nat) :=
    map (fun i => (i, nbs pos xs c)) (here pos xs (cidx n c)).

  Lemma cells_fold pos xs l js : ao l xs pos -> (forall j, j ∈ js -> (0 <= j < clTot l)%Z) ->
    exists cs, js = map (cidx n) cs /\ Forall (in_grid n) cs /\
      forall p, pCells p = l -> foldM (pl_cell M dist2 masked pos) p js = foldM (vstep dist2 masked pos) p (flat_map (cellV pos xs) cs).
  Proof.
    intros Ha. induction js as [|j js IH]; intros Hj; [by exists []|].
    destruct IH as (cs & Ejs & Hcs & IH); [intros; apply Hj; by right|].
    destruct (g_index_ex _ _ (ao_wf _ _ _ _ _ _ _ Ha) j) as (c & Hc & ->); [apply Hj; left|].
    exists (c :: cs). split; [cbn; congruence|]. split; [by constructor|]. intros p Hp. cbn [foldM flat_map].
    rewrite foldM_app. unfold pl_cell at 1. rewrite Hp. rewrite (ao_neighbors M cap toGen n l xs pos c Ha Hc). cbn [obind].
    assert (foldM (fun p ip => let? i := aget (nbs pos xs c) ip in pl_atom dist2 masked pos (nbs pos xs c) p i) p
              (seq 0 (length (here pos xs (cidx n c)))) = foldM (vstep dist2 masked pos) p (cellV pos xs c)) as E.
    { unfold nbs at 1. pose proof (seq_fold (pl_atom dist2 masked pos (nbs pos xs c)) (here pos xs (cidx n c))
         (flat_map (here pos xs) (others (cidx n c) (nbr n c))) 0 [] p eq_refl) as E. cbn [app] in E. etransitivity; [exact E|].
      unfold cellV. rewrite <- foldM_fmap. done. }
    rewrite E. destruct (foldM _ p (cellV pos xs c)) as [p1| |] eqn:E1; cbn [obind]; [|done..].
    apply IH. apply atoms_cells in E1. congruence.
  Qed.

  Lemma seqZ_bound m j : j ∈ seqZ 0 m <-> (0 <= j < m)%Z.
  Proof. rewrite elem_of_seqZ. lia. Qed.

  Section Contents.
    Context (pos : nat -> vec3 R) (xs : list nat) (l : clist) (cs : list (vec3 Z)).
    Context (Ha : ao l xs pos) (Hnd : NoDup xs) (Hp : forall a, a ∈ xs -> primary (toGen (pos a))).
    Context (Ecs : seqZ 0 (clTot l) = map (cidx n) cs) (Hcs : Forall (in_grid n) cs).
    Notation V := (flat_map (cellV pos xs) cs).
    Lemma cs_nodup : NoDup cs.
    Proof. apply (NoDup_fmap_1 (cidx n)). change (NoDup (map (cidx n) cs)). rewrite <- Ecs. apply NoDup_seqZ. Qed.
    Lemma V_fst : map fst V = flat_map (fun c => here pos xs (cidx n c)) cs.
    Proof.
      clear. induction cs as [|c cs' IH]; [done|]. cbn [flat_map]. rewrite map_app, IH. f_equal. unfold cellV. rewrite map_map.
      cbn. by rewrite map_id.
    Qed.
    Lemma V_elem i nb : (i, nb) ∈ V <-> i ∈ xs /\ nb = nbs pos xs (ccell n (toGen (pos i))).
    Proof.
      pose proof (ao_wf _ _ _ _ _ _ _ Ha) as W. rewrite elem_flat_map. unfold cellV. split.
      - intros (c & Hc & H). apply elem_of_list_fmap in H as (y & [= -> ->] & Hy). apply elem_of_list_filter in Hy as [Ey Hy].
        split; [done|]. f_equal. rewrite Forall_forall in Hcs. specialize (Hcs c Hc).
        destruct (g_index _ _ W toGen (pos y) (Hp y Hy)) as [_ Hg]. by eapply cidx_inj.
      - intros [Hi ->]. destruct (g_index _ _ W toGen (pos i) (Hp i Hi)) as [_ Hg].
        assert (ix (pos i) ∈ map (cidx n) cs) as (c & Ec & Hc)%elem_of_list_fmap.
        { rewrite <- Ecs. apply seqZ_bound. rewrite (g_tot _ _ W). by apply cidx_range. }
        exists c. split; [done|]. rewrite Forall_forall in Hcs. specialize (Hcs c Hc).
        assert (ccell n (toGen (pos i)) = c) as Ecc by (by eapply cidx_inj). rewrite Ecc.
        apply (elem_of_list_fmap_1 (fun i => (i, nbs pos xs c))). by apply elem_of_list_filter.
    Qed.
    Lemma V_nodup : NoDup (map fst V).
    Proof.
      rewrite V_fst. apply nodup_flat_map; [apply cs_nodup|intros; by apply NoDup_filter|].
      intros c1 c2 a H1 H2 [E1 _]%elem_of_list_filter [E2 _]%elem_of_list_filter. rewrite Forall_forall in Hcs.
      eapply cidx_inj; [by apply Hcs|by apply Hcs|congruence].
    Qed.
    Lemma V_members a : a ∈ map fst V <-> a ∈ xs.
    Proof.
      split.
      - intros ([i nb] & -> & H)%elem_of_list_fmap. by apply V_elem in H as [? _].
      - intros H. apply (elem_of_list_fmap_1 fst _ (a, nbs pos xs (ccell n (toGen (pos a))))). by apply V_elem.
    Qed.
    Lemma V_length : length V = length xs.
    Proof.
      rewrite <- (map_length fst). apply Permutation_length. apply NoDup_Permutation; [apply V_nodup|done|]. apply V_members.
    Qed.
    Lemma V_nbs x : x ∈ V -> NoDup x.2.
    Proof.
      destruct x as [i nb]. intros [Hi ->]%V_elem. cbn. pose proof (ao_wf _ _ _ _ _ _ _ Ha) as W.
      eapply nbs_nodup; [done| |done]. by apply (g_index _ _ W toGen (pos i) (Hp i Hi)).
    Qed.
    Lemma V_close cut :
      (forall p q, primary (toGen p) -> primary (toGen q) -> dist2 p q < cut * cut -> adjacent n (ccell n (toGen p)) (ccell n (toGen q))) ->
      lists_close dist2 masked cut xs pos (gpairs (gall dist2 masked pos cut ([], []) V).1).
    Proof.
      intros Hnear. pose proof (ao_wf _ _ _ _ _ _ _ Ha) as W. split.
      - apply gpairs_nodup; [apply V_nodup|apply V_nbs|intros ? _; apply not_elem_of_nil|constructor].
      - intros [i j]. rewrite gpairs_elem. unfold close, condb. cbn [fst snd]. split.
        + intros [H|(nb & [Hi ->]%V_elem & Hj & Hc)]; [by apply elem_of_nil in H|].
          apply (nbs_elem toGen n l) in Hj as [Hj _]; [|done| |done].
          2:{ by apply (g_index _ _ W toGen (pos i) (Hp i Hi)). }
          destruct (bool_decide (i < j)%nat) eqn:E; [|done]. apply bool_decide_eq_true in E.
          destruct (masked i j); [done|]. destruct (Rlt_dec _ _); [|done]. done.
        + intros (Hi & Hj & Hlt & Hm & Hd). right. exists (nbs pos xs (ccell n (toGen (pos i)))).
          split; [by apply V_elem|]. split.
          * apply (nbs_elem toGen n l); [done| |done|].
            { by apply (g_index _ _ W toGen (pos i) (Hp i Hi)). }
            split; [done|]. apply Hnear; auto.
          * rewrite bool_decide_eq_true_2 by done. rewrite Hm. by destruct (Rlt_dec _ _).
    Qed.
  End Contents.

  (** crowding *)
  Lemma in_cell_iff l c g : gwf l n -> primary g -> in_cell n c g <-> c = ccell n g.
  Proof.
    intros W Hg. unfold in_cell. split.
    - intros H. destruct c as [x y z]. unfold ccell. f_equal; symmetry.
      + apply (in_cell_axis _ x _ (g_pos _ _ W 0%nat ltac:(lia))); [apply (Hg 0%nat ltac:(lia))|apply (H 0%nat ltac:(lia))].
      + apply (in_cell_axis _ y _ (g_pos _ _ W 1%nat ltac:(lia))); [apply (Hg 1%nat ltac:(lia))|apply (H 1%nat ltac:(lia))].
      + apply (in_cell_axis _ z _ (g_pos _ _ W 2%nat ltac:(lia))); [apply (Hg 2%nat ltac:(lia))|apply (H 2%nat ltac:(lia))].
    - intros -> i Hi. apply in_cell_axis; [by apply W|by apply Hg|]. destruct i as [|[|[|]]]; try lia; done.
  Qed.
  Lemma crowded_iff l pos xs : gwf l n -> NoDup xs -> (forall a, a ∈ xs -> primary (toGen (pos a))) ->
    crowded toGen n M xs pos <-> exists j, (M < length (here pos xs j))%nat.
  Proof.
    intros W Hnd Hp. split.
    - intros (c & ys & Hy & Hsub & Hin & Hlen). exists (cidx n c). eapply Nat.lt_le_trans; [exact Hlen|].
      apply submseteq_length, NoDup_submseteq; [done|]. intros a Hay. apply elem_of_list_filter.
      specialize (Hin a Hay). pose proof (Hsub _ Hay) as Hax. split; [|done].
      apply (in_cell_iff l) in Hin; [|done|by apply Hp]. by rewrite Hin.
    - intros (j & Hj). destruct (here pos xs j) as [|a ys] eqn:E; [cbn in Hj; lia|].
      assert (forall b, b ∈ here pos xs j -> b ∈ xs /\ ix (pos b) = j) as HB.
      { intros b [? ?]%elem_of_list_filter. done. }
      exists (ccell n (toGen (pos a))), (a :: ys). rewrite <- E. split; [by apply NoDup_filter|].
      split; [intros b Hb; by apply HB|]. split; [|by rewrite E].
      intros b Hb. destruct (HB b Hb) as [Hbx Hbj]. destruct (HB a ltac:(rewrite E; left)) as [Hax Haj].
      apply (in_cell_iff l); [done|by apply Hp|].
      destruct (g_index _ _ W toGen (pos a) (Hp a Hax)) as [_ Ga]. destruct (g_index _ _ W toGen (pos b) (Hp b Hbx)) as [_ Gb].
      eapply cidx_inj; [done..|]. unfold CellListProofs.ix in *. congruence.
  Qed.
  Lemma not_crowded l pos xs j : ao l xs pos -> (forall a, a ∈ xs -> primary (toGen (pos a))) -> (length (here pos xs j) <= M)%nat.
  Proof.
    intros Ha Hp. pose proof (ao_wf _ _ _ _ _ _ _ Ha) as W. pose proof (g_cap _ _ W) as Hcap.
    destruct (decide (0 <= j < clTot l)%Z) as [Hj|Hj].
    - destruct (lookup_lt_is_Some_2 (clCells l) (Z.to_nat j) ltac:(lia)) as [c Hc].
      destruct (ao_cells _ _ _ _ _ _ _ Ha _ _ Hc) as [_ H]. by rewrite Z2Nat.id in H by lia.
    - destruct (here pos xs j) as [|a ys] eqn:E; [cbn; lia|]. exfalso. apply Hj.
      assert (a ∈ here pos xs j) as [Ea Hax]%elem_of_list_filter by (rewrite E; left).
      rewrite <- Ea, (g_tot _ _ W). apply cidx_range. by apply (g_index _ _ W toGen (pos a) (Hp a Hax)).
  Qed.

  (** entering the atoms *)
  Lemma enter_fold (pos : nat -> vec3 R) todo : forall dn post p,
    ao (pCells p) dn (fun a => wrap (pos a)) -> NoDup (dn ++ todo) ->
    (forall a, a ∈ todo -> (a < cap)%nat /\ primary (toGen (wrap (pos a)))) ->
    (forall a, a ∈ dn -> post a = wrap (pos a)) -> (forall a, a ∉ dn -> post a = pos a) ->
    (exists pos' p', foldM (pl_enter M toGen wrap) (post, p) todo = Ok (pos', p') /\
       ao (pCells p') (dn ++ todo) (fun a => wrap (pos a)) /\ p' = pl_cells p (pCells p') /\
       (forall a, a ∈ dn ++ todo -> pos' a = wrap (pos a)) /\ (forall a, a ∉ dn ++ todo -> pos' a = pos a)) \/
    (foldM (pl_enter M toGen wrap) (post, p) todo = Throw /\ exists j, (M < length (here (fun a => wrap (pos a)) (dn ++ todo) j))%nat).
  Proof.
    induction todo as [|a todo IH]; intros dn post p Ha Hnd Ht Hd Hu.
    - left. exists post, p. rewrite app_nil_r. split; [done|]. split; [done|]. split; [by destruct p|]. done.
    - cbn [foldM]. unfold pl_enter at 1 3. unfold pl_add. destruct (Ht a ltac:(left)) as [Hac Hap].
      assert (a ∉ dn /\ NoDup ((dn ++ [a]) ++ todo)) as [Han Hnd'].
      { rewrite <- app_assoc. cbn. split; [|done]. apply NoDup_app in Hnd as (_ & Hx & _). intros Hin. apply (Hx a Hin). left. }
      unfold move at 1 3. rewrite !decide_True by done. rewrite (Hu a Han).
      pose proof (ao_add M cap toGen n (pCells p) dn (fun a => wrap (pos a)) a Ha Hac Hap) as HA. cbn beta in HA.
      destruct (decide _) as [Hfull|Hnf].
      + right. rewrite HA. split; [done|]. exists (ix (wrap (pos a))). replace (dn ++ a :: todo) with ((dn ++ [a]) ++ todo) by (by rewrite <- app_assoc).
        rewrite here_app, app_length, here_app, app_length, Hfull. unfold PairListProofs.here at 1. rewrite filter_cons_True by done.
        cbn [length]. lia.
      + destruct HA as (l' & -> & Ha'). cbn [obind].
        destruct (IH (dn ++ [a]) (move post a (wrap (pos a))) (pl_cells p l')) as [(pos' & p' & E & A1 & A2 & A3 & A4)|[E Hj]]; try done.
        * intros b Hb. apply Ht. by right.
        * intros b. rewrite elem_of_app, elem_of_list_singleton. unfold move. intros [Hb| ->]; [|by rewrite decide_True].
          rewrite decide_False by congruence. by apply Hd.
        * intros b. rewrite elem_of_app, elem_of_list_singleton. intros Hb. unfold move. rewrite decide_False by tauto. apply Hu. tauto.
        * left. exists pos', p'. rewrite <- app_assoc in *. cbn [app] in *. split; [done|]. split; [done|]. split; [by destruct p|]. done.
        * right. rewrite <- app_assoc in Hj. done.
  Qed.

  Definition built (pos : nat -> vec3 R) (atoms : list nat) (p : plist) : Prop :=
    exists G L i, rep pos A Pc (pCut p) G L i [] (length G + length L) p /\
      Forall (fun g : nat * list nat => g.2 <> []) G /\ (forall a, a ∈ map fst G \/ a ∈ L <-> a ∈ atoms) /\
      (length G + length L = length atoms)%nat /\
      lists_close dist2 masked (pCut p) atoms pos (gpairs G) /\ visits p (gpairs G).

  Lemma refresh_spec (pos : nat -> vec3 R) atoms p : ready p -> positive3 lens -> grid_of lens (pCut p) n -> NoDup atoms ->
    (forall a, a ∈ atoms -> (a < cap)%nat /\ primary (toGen (wrap (pos a)))) ->
    (forall r q, primary (toGen r) -> primary (toGen q) -> dist2 r q < pCut p * pCut p -> adjacent n (ccell n (toGen r)) (ccell n (toGen q))) ->
    let P := fun a => wrap (pos a) in
    (exists pos' p', pl_refresh M toGen dist2 wrap lens masked atoms pos p = Ok (pos', p') /\
      (forall a, a ∈ atoms -> pos' a = P a) /\ (forall a, a ∉ atoms -> pos' a = pos a) /\ ready p' /\
      pCut p' = pCut p /\ pSkin p' = pSkin p /\ pCount p' = (pCount p + 1)%Z /\ built pos' atoms p' /\
      ~ crowded toGen n M atoms P /\ (length atoms <= A)%nat /\
      (forall l, lists_close dist2 masked (pCut p) atoms P l -> length l <= Pc)%nat) \/
    (pl_refresh M toGen dist2 wrap lens masked atoms pos p = Throw /\
      (crowded toGen n M atoms P \/ (A < length atoms)%nat \/
       (exists l, lists_close dist2 masked (pCut p) atoms P l /\ (Pc < length l)%nat))).
  Proof.
    intros HR HL HG Hnd Hat Hnear P. pose proof HR as []. unfold pl_refresh. rewrite rd_init0. cbn [check obind].
    unfold pl_setup. destruct (ao_setup M cap toGen n lens (pCut p) (pCells p) P rd_cut0 HL rd_tags0 HG) as (l0 & -> & Ha0).
    cbn [obind]. unfold pl_reset. cbn [pl_cells pFirst]. rewrite (zset_nat (pFirst p) 0 0%Z : _ -> zset (pFirst p) 0 0%Z = _) by lia. cbn [obind].
    set (p1 := pl_put _ _ _ _ _ _ _ _ _).
    destruct (enter_fold pos atoms [] pos p1) as [(pos' & p2 & E & Ha & Ep2 & Hpin & Hpout)|[E Hj]]; try done.
    { intros a Ha. by apply elem_of_nil in Ha. }
    2:{ right. rewrite E. cbn [obind]. split; [done|]. left. apply (crowded_iff l0); [apply Ha0|done|apply Hat|done]. }
    cbn [app] in *. rewrite E. cbn [obind].
    assert (Haf : ao (pCells p2) atoms pos').
    { eapply ao_ext; [exact Ha|]. intros a Hx. symmetry. by apply Hpin. }
    assert (Hprim : forall a, a ∈ atoms -> primary (toGen (pos' a))) by (intros a Hx; rewrite Hpin by done; by apply Hat).
    assert (Hnc : ~ crowded toGen n M atoms P).
    { rewrite (crowded_iff (pCells p2)); [|apply Ha|done|apply Hat]. intros [j Hj]. apply (Nat.lt_irrefl M), (Nat.lt_le_trans _ _ _ Hj).
      exact (not_crowded _ _ _ j Ha (fun a H => proj2 (Hat a H))). }
    assert (Hcl : forall l, lists_close dist2 masked (pCut p) atoms P l <-> lists_close dist2 masked (pCut p) atoms pos' l).
    { assert (forall x, close dist2 masked (pCut p) atoms P x <-> close dist2 masked (pCut p) atoms pos' x) as HC.
      { intros [i j]. unfold close. cbn. split; intros (H1 & H2 & H); (split; [done|]; split; [done|]); rewrite ?Hpin in * by done; done. }
      intros l. unfold lists_close. setoid_rewrite HC. done. }
    unfold pl_build, pl_reset. assert (length (pFirst p2) = S A) as HF2 by (rewrite Ep2; cbn; by rewrite insert_length).
    rewrite (zset_nat (pFirst p2) 0 0%Z : _ -> zset (pFirst p2) 0 0%Z = _) by lia. cbn [obind].
    set (p3 := pl_put _ _ _ _ _ _ _ _ _).
    destruct (cells_fold pos' atoms (pCells p2) (seqZ 0 (clTot (pCells p2))) Haf) as (cs & Ecs & Hcs & HV).
    { intros j Hj. by apply seqZ_bound. }
    change (pCells p3) with (pCells p2). rewrite (HV p3 eq_refl).
    set (V := flat_map (cellV pos' atoms) cs) in *.
    assert (Ecut : pCut p2 = pCut p) by (rewrite Ep2; done).
    assert (Hrep : rep pos' A Pc (pCut p) [] [] 0%nat [] 0 p3).
    { split; cbn [p3 pl_put pAcap pPcap pCut pA1 pA2 pFirst pOld pN1 pN2 pN pT length]; try (rewrite Ep2; cbn; done); try done.
      - by rewrite insert_length.
      - rewrite Ep2. cbn. lia.
      - intros k Hk. assert (k = 0)%nat as -> by lia. rewrite list_lookup_insert by lia. done.
      - lia.
      - cbn. lia. }
    pose proof (visit_fold dist2 masked pos' A Pc (pCut p) V [] [] 0%nat p3 Hrep) as HVF. cbn zeta in HVF.
    pose proof (gall_len dist2 masked pos' (pCut p) V ([], [])) as Elen. cbn [fst snd length Nat.add] in Elen.
    pose proof (V_length pos' atoms (pCells p2) cs Haf Hnd Hprim Ecs Hcs) as EVl. fold V in EVl. rewrite EVl in Elen.
    pose proof (V_close pos' atoms (pCells p2) cs Haf Hnd Hprim Ecs Hcs (pCut p) Hnear) as HLC. fold V in HLC.
    set (s := gall dist2 masked pos' (pCut p) ([], []) V) in *.
    rewrite <- (gpairs_length s.1) in HVF.
    assert (Hall : forall l, lists_close dist2 masked (pCut p) atoms P l -> length l = length (gpairs s.1)).
    { intros l [N1 N2]%Hcl. destruct HLC as [N3 N4]. apply Permutation_length, NoDup_Permutation; [done..|].
      intros x. by rewrite N2, N4. }
    destruct (decide _) as [[K1 K2]|Hno].
    - left. destruct HVF as (i & p4 & -> & Hr & Est). cbn [obind]. eexists _, _. split; [done|].
      unfold static in Est. injection Est as S1 S2 S3 S4 S5 S6 S7 S8 S9.
      assert (HF : Forall (fun g : nat * list nat => g.2 <> []) s.1) by (apply grp_nonempty; constructor).
      split; [done|]. split; [done|]. split.
      + destruct Hr. split; cbn; try done; try congruence.
        * rewrite S9. rewrite Ep2. done.
        * rewrite S1. apply Ha.
      + cbn [pCut pSkin pCount]. split; [rewrite S3; exact Ecut|]. split; [rewrite S2; cbn; rewrite Ep2; done|].
        split; [rewrite S8; cbn; rewrite Ep2; done|]. split; [|split; [done|split; [lia|]]].
        * exists s.1, s.2, i. cbn [pCut]. rewrite S3. change (pCut p3) with (pCut p2). rewrite Ecut.
          match goal with |- rep _ _ _ _ _ _ _ _ _ ?q /\ _ => set (pf := q) end.
          assert (rep pos' A Pc (pCut p) s.1 s.2 i [] (length s.1 + length s.2) pf) as Hr' by (destruct Hr; split; done).
          split; [done|]. split; [done|]. split.
          { intros a. unfold s. rewrite (gall_members dist2 masked pos' A (pCut p)). cbn [fst snd map].
            pose proof (V_members pos' atoms (pCells p2) cs Haf Hprim Ecs Hcs a) as HVm. fold V in HVm. rewrite HVm, !elem_of_nil. tauto. }
          split; [done|]. split; [done|]. by eapply rep_visits.
        * intros l Hl. rewrite (Hall l Hl). done.
    - right. rewrite HVF. cbn [obind]. split; [done|]. right.
      destruct (decide (length atoms <= A)%nat); [|left; lia]. right. exists (gpairs s.1). split; [by apply Hcl|]. lia.
  Qed.

  (** ** isCurrent *)
  Lemma cur_spec pos' p ks : (forall k, k ∈ ks -> exists a o, zget (pA1 p) k = Ok (Some a) /\ zget (pOld p) k = Ok o) ->
    exists b : bool, pl_cur dist2 pos' p ks = Ok b /\
      (b = true <-> forall k a o, k ∈ ks -> zget (pA1 p) k = Ok (Some a) -> zget (pOld p) k = Ok o ->
        dist2 (pos' a) o <= (1/4) * pSkin p * pSkin p).
  Proof.
    induction ks as [|k ks IH]; intros H.
    - exists true. split; [done|]. split; [|done]. intros _ k a o Hk. by apply elem_of_nil in Hk.
    - cbn [pl_cur]. destruct (H k ltac:(left)) as (a & o & Ea & Eo). rewrite Ea. cbn [obind]. rewrite Eo. cbn [obind].
      destruct (Rgt_dec _ _) as [Hgt|Hle].
      + exists false. split; [done|]. split; [done|]. intros Hall. specialize (Hall k a o ltac:(left) Ea Eo). lra.
      + destruct IH as (b & Eb & Hb); [intros; apply H; by right|]. exists b. split; [done|]. rewrite Hb. split.
        * intros Hk k' a' o' Hk' Ea' Eo'. apply elem_of_cons in Hk' as [->|Hk']; [|by eauto].
          rewrite Ea in Ea'. injection Ea' as <-. rewrite Eo in Eo'. injection Eo' as <-. lra.
        * intros Hk k' a' o' Hk'. apply Hk. by right.
  Qed.
  Lemma isCurrent_rep (pos pos' : nat -> vec3 R) (atoms : list nat) p :
    (exists G L i, rep pos A Pc (pCut p) G L i [] (length G + length L) p /\ (forall a, a ∈ map fst G \/ a ∈ L <-> a ∈ atoms)) ->
    (0 < pCount p)%Z ->
    exists b : bool, pl_isCurrent dist2 pos' p = Ok b /\
      (b = true <-> forall a, a ∈ atoms -> dist2 (pos' a) (pos a) <= (1/4) * pSkin p * pSkin p).
  Proof.
    intros (G & L & i & Hr & Hm) Hc. unfold pl_isCurrent. rewrite decide_False by lia.
    pose proof Hr as [hacap hpcap hcut hla1 hla2 hlf hlo hn1 hn2 hn ht ha1 hf ha2 hl hi hcap hcap2].
    assert (HG : forall k, k ∈ seqZ 0 (pN1 p) <-> exists m x, k = Z.of_nat m /\ G !! m = Some x).
    { intros k. rewrite hn1, seqZ_bound. split.
      - intros Hk. destruct (lookup_lt_is_Some_2 G (Z.to_nat k) ltac:(lia)) as [x Hx]. exists (Z.to_nat k), x. split; [lia|done].
      - intros (m & x & -> & Hx). apply lookup_lt_Some in Hx. lia. }
    assert (HL : forall k, k ∈ rev (seqZ (pT p + 1) (pAcap p - 1 - pT p)) <-> exists m x, k = Z.of_nat (A - 1 - m) /\ L !! m = Some x).
    { intros k. rewrite rev_alt, <- rev_alt. rewrite elem_of_list_In, <- in_rev, <- elem_of_list_In.
      rewrite ht, hacap, elem_of_seqZ. split.
      - intros Hk. destruct (lookup_lt_is_Some_2 L (A - 1 - Z.to_nat k) ltac:(lia)) as [x Hx]. exists (A - 1 - Z.to_nat k)%nat, x. split; [lia|done].
      - intros (m & x & -> & Hx). apply lookup_lt_Some in Hx. lia. }
    destruct (cur_spec pos' p (seqZ 0 (pN1 p))) as (b1 & E1 & H1).
    { intros k (m & x & -> & Hx)%HG. destruct (ha1 _ _ Hx). eexists _, _. split; by apply zget_nat. }
    rewrite E1. cbn [obind].
    assert (H1' : b1 = true <-> forall a, a ∈ map fst G -> dist2 (pos' a) (pos a) <= 1 / 4 * pSkin p * pSkin p).
    { rewrite H1. split.
      - intros H a (x & -> & (m & Hx)%elem_of_list_lookup)%elem_of_list_fmap. destruct (ha1 _ _ Hx) as [X1 X2].
        apply (H (Z.of_nat m) x.1 (pos x.1)); [apply HG; eauto|by apply zget_nat..].
      - intros H k a o (m & x & -> & Hx)%HG Ea Eo. destruct (ha1 _ _ Hx) as [X1 X2].
        rewrite (zget_nat _ _ _ X1) in Ea. rewrite (zget_nat _ _ _ X2) in Eo. injection Ea as <-. injection Eo as <-.
        apply H. by apply (elem_of_list_fmap_1 fst), elem_of_list_lookup_2 with m. }
    destruct (cur_spec pos' p (rev (seqZ (pT p + 1) (pAcap p - 1 - pT p)))) as (b2 & E2 & H2).
    { intros k (m & x & -> & Hx)%HL. destruct (hl _ _ Hx). eexists _, _. split; by apply zget_nat. }
    assert (H2' : b2 = true <-> forall a, a ∈ L -> dist2 (pos' a) (pos a) <= 1 / 4 * pSkin p * pSkin p).
    { rewrite H2. split.
      - intros H a (m & Hx)%elem_of_list_lookup. destruct (hl _ _ Hx) as [X1 X2].
        apply (H (Z.of_nat (A - 1 - m)) a (pos a)); [apply HL; eauto|by apply zget_nat..].
      - intros H k a o (m & x & -> & Hx)%HL Ea Eo. destruct (hl _ _ Hx) as [X1 X2].
        rewrite (zget_nat _ _ _ X1) in Ea. rewrite (zget_nat _ _ _ X2) in Eo. injection Ea as <-. injection Eo as <-.
        apply H. by apply elem_of_list_lookup_2 with m. }
    destruct b1.
    - exists b2. split; [done|]. rewrite H2'. split; [|intros H a Ha; apply H, Hm; by right].
      intros H a [Ha|Ha]%Hm; [by apply H1'|by apply H].
    - exists false. split; [done|]. split; [done|]. intros H. apply H1'. intros a Ha. apply H, Hm. by left.
  Qed.
  Lemma isCurrent_spec pos pos' atoms p : built pos atoms p -> (0 < pCount p)%Z ->
    exists b : bool, pl_isCurrent dist2 pos' p = Ok b /\
      (b = true <-> forall a, a ∈ atoms -> dist2 (pos' a) (pos a) <= (1/4) * pSkin p * pSkin p).
  Proof. intros (G & L & i & Hr & _ & Hm & _) Hc. apply isCurrent_rep; [by exists G, L, i|done]. Qed.
End Refresh.

(** ** States reached in any way *)
Section States.
  Context (M cap A Pc : nat) (skin cutoff : R).
  Definition listed (p : plist) : Prop :=
    exists pos G L i, rep pos A Pc (cutoff + skin) G L i [] (length G + length L) p /\ Forall (fun g : nat * list nat => g.2 <> []) G.
  Record stok (p : plist) : Prop := {
    st_ready : ready cap A Pc p;
    st_list : listed p;
    st_skin : pSkin p = skin;
    st_cut : pCut p = cutoff + skin;
    st_sk0 : 0 < skin;
    st_cnt : (0 <= pCount p)%Z
  }.
  Lemma zset_Ok_length {T} (l : list T) i x l' : zset l i x = Ok l' -> length l' = length l.
  Proof. unfold zset, aset. repeat destruct (decide _); intros [= <-]. by rewrite insert_length. Qed.

  Lemma reset_listed p q : stok p -> pl_reset p = Ok q -> listed q /\ q = pl_put p (pA1 p) (pA2 p) (pFirst q) (pOld p) 0 0 0 (pAcap p - 1) /\
    length (pFirst q) = S A.
  Proof.
    intros [[] _ _ ? _ _]. unfold pl_reset. rewrite (zset_nat (pFirst p) 0 0%Z : _ -> zset (pFirst p) 0 0%Z = _) by lia. cbn [obind].
    intros [= <-]. cbn. rewrite insert_length. split; [|done].
    exists (fun _ => V3 0 0 0), [], [], 0%nat. split; [|constructor].
    split; cbn; try done; try lia.
    - by rewrite insert_length.
    - intros k Hk. assert (k = 0)%nat as -> by lia. rewrite list_lookup_insert by lia. done.
  Qed.
  Lemma reset_stok p q : stok p -> pl_reset p = Ok q -> stok q.
  Proof.
    intros H Hq. destruct (reset_listed p q H Hq) as (H1 & H2 & H3). rewrite H2 in H1 |- *. destruct H as [[] ? ? ? ?]. by split.
  Qed.
  Lemma cells_stok p c : stok p -> length (clTags c) = cap -> stok (pl_cells p c).
  Proof.
    intros [[] (pos & G & L & i & Hr & HF) ? ? ?] Hc. split; try done. exists pos, G, L, i. split; [|done]. destruct Hr. by split.
  Qed.
  Lemma setup_tags lens cut l l' : cl_setup M lens cut l = Ok l' -> length (clTags l') = length (clTags l).
  Proof.
    unfold cl_setup. destruct (Rle_dec cut 0); [done|]. cbv zeta. intros ([] & _ & [= <-])%obind_Ok. cbn. by rewrite replicate_length.
  Qed.
  Lemma aset_Ok_length {T} (l : list T) i x l' : aset l i x = Ok l' -> length l' = length l.
  Proof. unfold aset. destruct (decide _); intros [= <-]. by rewrite insert_length. Qed.
  Lemma add_tags toGen l a r l' : cl_add M toGen l a r = Ok l' -> length (clTags l') = length (clTags l).
  Proof.
    unfold cl_add, cl_cell_add. intros (c & _ & H)%obind_Ok. apply obind_Ok in H as (? & _ & H). apply obind_Ok in H as ([c' p] & _ & H).
    apply obind_Ok in H as (cells & _ & H). apply obind_Ok in H as (tags & Ht & [= <-]). cbn. by eapply aset_Ok_length.
  Qed.
  Lemma atoms_rep dist2 masked pos nb ks cut : forall G L i0 p p', rep pos A Pc cut G L i0 [] (length G + length L) p ->
    Forall (fun g : nat * list nat => g.2 <> []) G ->
    foldM (fun p ip => let? i := aget nb ip in pl_atom dist2 masked pos nb p i) p ks = Ok p' ->
    exists G' L' i', rep pos A Pc cut G' L' i' [] (length G' + length L') p' /\ Forall (fun g : nat * list nat => g.2 <> []) G' /\
      static p' = static p.
  Proof.
    induction ks as [|k ks IH]; intros G L i0 p p' Hr HF; cbn [foldM]; [intros [= <-]; eauto 10|].
    intros (p1 & H1 & H2)%obind_Ok. apply obind_Ok in H1 as (i & _ & H1).
    pose proof (atom_step dist2 masked pos A Pc cut G L i0 p i nb Hr) as HA. cbn zeta in HA.
    destruct (decide _); [|congruence]. destruct HA as (p1' & E & Hr1 & Es). rewrite H1 in E. injection E as <-.
    eapply IH in Hr1 as (G' & L' & i' & H3 & H4 & H5); [| |done].
    - exists G', L', i'. split; [done|]. split; [done|]. congruence.
    - unfold add_grp. destruct (bool_decide _) eqn:E; [|done]. apply bool_decide_eq_true in E. apply Forall_app. split; [done|]. by constructor.
  Qed.
  Lemma cells_rep dist2 masked pos cs cut : forall G L i0 p p', rep pos A Pc cut G L i0 [] (length G + length L) p ->
    Forall (fun g : nat * list nat => g.2 <> []) G ->
    foldM (pl_cell M dist2 masked pos) p cs = Ok p' ->
    exists G' L' i', rep pos A Pc cut G' L' i' [] (length G' + length L') p' /\ Forall (fun g : nat * list nat => g.2 <> []) G' /\
      static p' = static p.
  Proof.
    induction cs as [|k cs IH]; intros G L i0 p p' Hr HF; cbn [foldM]; [intros [= <-]; eauto 10|].
    intros (p1 & H1 & H2)%obind_Ok. unfold pl_cell in H1. apply obind_Ok in H1 as ([nb m] & _ & H1).
    destruct (atoms_rep _ _ _ _ _ _ _ _ _ _ _ Hr HF H1) as (G1 & L1 & i1 & Hr1 & HF1 & Es1).
    destruct (IH _ _ _ _ _ Hr1 HF1 H2) as (G' & L' & i' & H3 & H4 & H5). exists G', L', i'. split; [done|]. split; [done|]. congruence.
  Qed.
  Lemma build_stok dist2 masked pos p q : stok p -> pl_build M dist2 masked pos p = Ok q -> stok q.
  Proof.
    intros H. unfold pl_build. intros (p1 & H1 & H2)%obind_Ok. apply obind_Ok in H2 as (p2 & H2 & H3).
    destruct (reset_listed p p1 H H1) as (_ & E1 & _). apply (reset_stok p p1 H) in H1 as H1'.
    assert (rep pos A Pc (cutoff + skin) [] [] 0%nat [] 0 p1) as Hr.
    { destruct H1' as [HR1 (pos0 & G & L & i & Hr0 & HF0) _ _ _ _]. pose proof (r_f _ _ _ _ _ _ _ _ _ _ Hr0 0%nat ltac:(lia)) as Hf0.
      pose proof (rd_lf _ _ _ _ HR1) as HL1. clear Hr0 HR1. destruct H as [[] _ ? ? ? ?]. rewrite E1. split; cbn; try done; try lia.
      intros k Hk. assert (k = 0)%nat as -> by lia. rewrite Hf0. done. }
    destruct (cells_rep _ _ _ _ _ _ _ _ _ _ Hr ltac:(constructor) H2) as (G & L & i & Hr2 & HF2 & Es).
    injection H3 as <-. unfold static in Es. injection Es as S1 S2 S3 S4 S5 S6 S7 S8 S9. destruct H1' as [[] _ ? ? ?].
    split.
    - destruct Hr2. split; cbn; try done; try congruence.
    - exists pos, G, L, i. split; [|done]. destruct Hr2. by split.
    - cbn. congruence.
    - cbn. congruence.
    - done.
    - cbn. lia.
  Qed.
  Lemma state_stok p : 0 <= cutoff -> pl_state M cap A Pc skin cutoff p -> stok p.
  Proof.
    intros Hc. induction 1 as [p H|p lens q _ IH H|p q _ IH H|p toGen a r q _ IH H|p dist2 masked pos q _ IH H|p _ IH].
    - unfold pl_initialize in H. destruct (Rle_dec _ _) as [|Hs]; [done|]. cbn in Hs. apply obind_Ok in H as ([] & Hcap & H).
      unfold pl_allocate in H. apply obind_Ok in H as ([] & HA & H). apply obind_Ok in H as ([] & HP & H).
      cbn [pl_read pAcap pPcap] in HA, HP.
      assert (forall z, check (bool_decide (0 < z)%Z) = Ok () -> (0 < z)%Z) as HC.
      { intros z. destruct (decide (0 < z)%Z); [done|]. rewrite bool_decide_eq_false_2 by done. done. }
      apply HC in Hcap, HA, HP. assert ((0 < cap /\ 0 < A /\ 0 < Pc)%nat) as (Hcap' & HA' & HP') by lia.
      cbn [pl_read pAcap] in H.
      rewrite (zset_nat (replicate (Z.to_nat (Z.of_nat A + 1)) (-1)%Z) 0 0%Z : _ -> zset _ 0 0%Z = _) in H
        by (rewrite replicate_length; lia). cbn [obind] in H. injection H as <-.
      split; cbn.
      + split; cbn; rewrite ?insert_length, ?replicate_length; try done; try lia. lra.
      + exists (fun _ => V3 0 0 0), [], [], 0%nat. split; [|constructor].
        split; cbn; rewrite ?insert_length, ?replicate_length; try done; try lia.
        intros k Hk. assert (k = 0)%nat as -> by lia. rewrite list_lookup_insert by (rewrite replicate_length; lia). done.
      + done.
      + done.
      + lra.
      + lia.
    - unfold pl_setup in H. apply obind_Ok in H as (c & H1 & H2). eapply reset_stok; [|exact H2].
      apply cells_stok; [done|]. rewrite (setup_tags _ _ _ _ H1). apply IH.
    - unfold pl_clear in H. eapply reset_stok; [|exact H]. apply cells_stok; [done|]. cbn. rewrite replicate_length. apply IH.
    - unfold pl_add in H. apply obind_Ok in H as (c & H1 & [= <-]). apply cells_stok; [done|].
      rewrite (add_tags _ _ _ _ _ H1). apply IH.
    - by eapply build_stok.
    - destruct IH as [[] (pos & G & L & i & Hr & HF) ? ? ?]. split; cbn; try done.
      exists pos, G, L, i. split; [|done]. destruct Hr. by split.
  Qed.

  Lemma rep_stored pos cut G L i p : rep pos A Pc cut G L i [] (length G + length L) p ->
    stored p = map (fun x => (Some x.1, Some x.2)) (gpairs G).
  Proof.
    intros []. unfold stored. rewrite r_n3, Nat2Z.id.
    assert (forall k, (k <= length G)%nat ->
      flat_map (fun k => match pA1 p !! k, pFirst p !! k, pFirst p !! S k with
                     | Some a, Some f, Some f' => map (pair a) (take (Z.to_nat (f' - f)) (drop (Z.to_nat f) (pA2 p)))
                     | _, _, _ => [] end) (seq k (length G - k)) = map (fun x => (Some x.1, Some x.2)) (gpairs (drop k G))) as HK.
    2:{ specialize (HK 0%nat). rewrite drop_0, Nat.sub_0_r in HK. apply HK. lia. }
    intros k Hk. remember (length G - k)%nat as d eqn:Ed. revert k Hk Ed. induction d as [|d IH]; intros k Hk Ed.
    - rewrite drop_ge by lia. done.
    - destruct (lookup_lt_is_Some_2 G k ltac:(lia)) as [[a bs] Hg]. cbn [seq flat_map]. rewrite IH by lia.
      rewrite (drop_S _ _ _ Hg). change (gpairs ((a, bs) :: drop (S k) G)) with (map (pair a) bs ++ gpairs (drop (S k) G)).
      rewrite map_app. f_equal. rewrite (proj1 (r_a3 _ _ Hg)), (r_f0 k), (r_f0 (S k)) by lia.
      rewrite (take_S_r _ _ _ Hg), flat_app, flat_one, app_length. cbn [fst].
      replace (Z.to_nat (Z.of_nat (length (flat (take k G)) + length bs) - Z.of_nat (length (flat (take k G))))) with (length bs) by lia.
      rewrite Nat2Z.id.
      assert (take (length bs) (drop (length (flat (take k G))) (pA2 p)) = map Some bs) as ->.
      { apply list_eq. intros m. destruct (decide (m < length bs)%nat) as [Hm|Hm].
        - rewrite lookup_take by done. rewrite lookup_drop. destruct (lookup_lt_is_Some_2 bs m Hm) as [b Hb].
          rewrite (r_a4 _ b); [by rewrite list_lookup_fmap, Hb|].
          assert (flat G = flat (take k G) ++ bs ++ flat (drop (S k) G)) as EG.
          { rewrite <- (take_drop k G) at 1. rewrite flat_app, (drop_S _ _ _ Hg). done. }
          rewrite app_nil_r, EG. rewrite lookup_app_r by lia. rewrite lookup_app_l by lia.
          by replace (length (flat (take k G)) + m - length (flat (take k G)))%nat with m by lia.
        - rewrite lookup_take_ge by lia. symmetry. apply lookup_ge_None. rewrite map_length. lia. }
      rewrite !map_map. done.
  Qed.
End States.
