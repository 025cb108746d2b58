(** Theorems about species: topology of what the readers accept, exactness of isValid. *)
From Verif Require Import Base SpeciesModel SpeciesSpec SpeciesProofs SpeciesBuild.
Local Open Scope Z_scope.

(** the structure of a linear species *)
Definition linear_structure (s : species) (n : Z) (hA hD : bool) (types : list Z) (bt ta td : Z) : Prop :=
  spNAtom s = n /\ spTypes s = types /\
  gtN (spBond s) = n - 1 /\ chain_groups (n - 1) 2 (fun _ => bt) (gtGroups (spBond s)) /\
  (let m := if hA then n - 2 else 0 in
   gtN (spAngle s) = m /\ chain_groups m 3 (fun _ => ta) (gtGroups (spAngle s))) /\
  (let m := if hD then n - 3 else 0 in
   gtN (spDihedral s) = m /\ chain_groups m 4 (fun _ => td) (gtGroups (spDihedral s))).

Lemma linear_sp_structure cap n hA hD tA bt ta td :
  2 <= n -> (hA <> 0 -> 3 <= n) -> (hD <> 0 -> 4 <= n) ->
  linear_structure (linear_sp cap n (nangle hA n) (ndihedral hD n) tA (fun _ => bt) (fun _ => ta) (fun _ => td)) n
    (negb (bool_decide (hA = 0))) (negb (bool_decide (hD = 0))) (tab n tA) bt ta td.
Proof.
  intros Hn HA HD. unfold linear_structure, linear_sp. cbn [spNAtom spTypes spBond spAngle spDihedral].
  split; [done|]. split; [done|]. split; [done|]. split; [apply built_chain; lia|].
  assert (EA : (if negb (bool_decide (hA = 0)) then n - 2 else 0) = nangle hA n).
  { unfold nangle. destruct (decide (hA = 0)); [by rewrite bool_decide_eq_true_2|by rewrite bool_decide_eq_false_2]. }
  assert (ED : (if negb (bool_decide (hD = 0)) then n - 3 else 0) = ndihedral hD n).
  { unfold ndihedral. destruct (decide (hD = 0)); [by rewrite bool_decide_eq_true_2|by rewrite bool_decide_eq_false_2]. }
  rewrite EA, ED. split; (split; [done|]); apply built_chain; clear EA ED; by_nangle.
Qed.

(** a helper for the four linear classes *)
Lemma linear_read n o d cap tA bt s :
  read_ad n o = Ok d ->
  build_linear cap n (n - 1) (nA d) (nD d) (hasA d) (hasD d) tA (fun _ => bt) (fun _ => typeA d) (fun _ => typeD d) = Ok s ->
  2 <= n /\ (hasA d <> 0 -> 3 <= n) /\ (hasD d <> 0 -> 4 <= n) /\
  s = linear_sp cap n (nangle (hasA d) n) (ndihedral (hasD d) n) tA (fun _ => bt) (fun _ => typeA d) (fun _ => typeD d).
Proof.
  intros Hd Hs. pose proof (read_ad_Ok _ _ _ Hd) as (E1 & E2 & E3 & E4 & E5 & E6 & _).
  assert (Hn := build_linear_ge2 _ _ _ _ _ _ _ _ _ _ _ _ Hs).
  assert (hasA d <> 0 -> 3 <= n) by (intros; by apply E5). assert (hasD d <> 0 -> 4 <= n) by (intros; by apply E6).
  split; [done|]. split; [done|]. split; [done|].
  rewrite E2, E4, build_linear_Ok in Hs by done. congruence.
Qed.

Definition asks (o : option Z) : bool := negb (bool_decide (default 0 o = 0)).

Lemma linear_read_structure n o d cap tA bt s :
  read_ad n o = Ok d ->
  build_linear cap n (n - 1) (nA d) (nD d) (hasA d) (hasD d) tA (fun _ => bt) (fun _ => typeA d) (fun _ => typeD d) = Ok s ->
  species_ok s /\ spCap s = cap /\
  linear_structure s n (asks (ogHasA o)) (asks (ogHasD o)) (tab n tA) bt (ogTypeA o) (ogTypeD o).
Proof.
  intros Hd Hs. destruct (linear_read _ _ _ _ _ _ _ Hd Hs) as (Hn & HA & HD & ->).
  pose proof (read_ad_Ok _ _ _ Hd) as (E1 & _ & E3 & _ & E5 & E6 & _).
  split; [by apply linear_sp_ok|]. split; [done|].
  unfold asks. rewrite <- E1, <- E3.
  pose proof (linear_sp_structure cap n (hasA d) (hasD d) tA bt (typeA d) (typeD d) Hn HA HD) as (H1 & H2 & H3 & H4 & H5 & H6).
  split; [done|]. split; [done|]. split; [done|]. split; [done|]. split.
  - destruct (decide (hasA d = 0)) as [E|E].
    + rewrite bool_decide_eq_true_2 in * by done. cbn [negb] in *. destruct H5 as [? [? ?]]. split; [done|].
      split; [done|]. intros i g Hg. apply lookup_lt_Some in Hg. lia.
    + destruct (E5 E) as [_ <-]. done.
  - destruct (decide (hasD d = 0)) as [E|E].
    + rewrite (bool_decide_eq_true_2 (hasD d = 0)) in * by done. cbn [negb] in *. destruct H6 as [? [? ?]]. split; [done|].
      split; [done|]. intros i g Hg. apply lookup_lt_Some in Hg. lia.
    + destruct (E6 E) as [_ <-]. done.
Qed.

Lemma tab_const {A} n (x : A) : tab n (fun _ => x) = replicate (Z.to_nat n) x.
Proof. by rewrite replicate_tab. Qed.

(** ** Homopolymer *)
Theorem homopolymer_topology cap n at_ bt o h :
  hp_read cap n at_ bt o = Ok h ->
  species_ok (hpSp h) /\ is_valid false (hpSp h) = Ok () /\ spCap (hpSp h) = cap /\
  linear_structure (hpSp h) n (asks (ogHasA o)) (asks (ogHasD o)) (replicate (Z.to_nat n) at_) bt (ogTypeA o) (ogTypeD o).
Proof.
  unfold hp_read, hp_build. intros H. apply obind_Ok in H as (d & Hd & H). apply obind_Ok in H as (s & Hs & H).
  apply obind_Ok in H as ([] & Hv & [= <-]). cbn [hpSp].
  destruct (linear_read_structure _ _ _ _ _ _ _ Hd Hs) as (? & ? & ?). rewrite <- tab_const. done.
Qed.

(** the reader accepts every sensible parameter set *)
Theorem homopolymer_accepted cap n at_ bt o :
  2 <= n -> 0 <= at_ -> (asks (ogHasA o) = true -> 3 <= n) -> (asks (ogHasD o) = true -> 4 <= n) ->
  exists h, hp_read cap n at_ bt o = Ok h.
Proof.
  intros Hn Ha HA HD. unfold asks in *. rewrite !negb_true_iff, !bool_decide_eq_false in HA, HD.
  destruct (read_ad_accepts n o HA HD) as [d Hd]. unfold hp_read, hp_build. rewrite Hd. cbn [obind].
  pose proof (read_ad_Ok _ _ _ Hd) as (E1 & E2 & E3 & E4 & E5 & E6 & _).
  rewrite E2, E4, build_linear_Ok by (rewrite ?E1, ?E3; auto). cbn [obind].
  rewrite linear_made_valid; [cbn; eauto| | |].
  - cbn. intros E. apply (f_equal length) in E. rewrite tab_length in E. cbn in E. lia.
  - apply linear_sp_ok; rewrite ?E1, ?E3; auto.
  - right. cbn. intros t Ht. apply elem_of_list_fmap in Ht as (? & -> & _). done.
Qed.

(** ** Diblock *)
Lemma tab_app {A} n m (f : Z -> A) : 0 <= n -> 0 <= m -> tab (n + m) f = tab n f ++ tab m (fun i => f (n + i)).
Proof.
  intros. apply list_eq. intros i. destruct (decide (Z.of_nat i < n)).
  - rewrite lookup_app_l by (rewrite tab_length; lia). rewrite !tab_lookup by lia. done.
  - rewrite lookup_app_r by (rewrite tab_length; lia). rewrite tab_length.
    destruct (decide (Z.of_nat i < n + m)).
    + rewrite !tab_lookup by lia. do 2 f_equal. lia.
    + rewrite !lookup_ge_None_2 by (rewrite tab_length; lia). done.
Qed.

Theorem diblock_topology cap len types bt o h :
  db_read cap len types bt o = Ok h ->
  species_ok (dbSp h) /\ is_valid false (dbSp h) = Ok () /\ spCap (dbSp h) = cap /\
  linear_structure (dbSp h) (fst len + snd len) (asks (ogHasA o)) (asks (ogHasD o))
    (replicate (Z.to_nat (fst len)) (fst types) ++ replicate (Z.to_nat (snd len)) (snd types)) bt (ogTypeA o) (ogTypeD o).
Proof.
  unfold db_read, db_build. intros H. apply obind_Ok in H as ([] & Hl & H). apply obind_Ok in H as (d & Hd & H).
  apply obind_Ok in H as (s & Hs & H). apply obind_Ok in H as ([] & Hv & [= <-]). cbn [dbSp].
  apply check_Ok, andb_true_iff in Hl as [H1%bool_decide_eq_true H2%bool_decide_eq_true].
  destruct (linear_read_structure _ _ _ _ _ _ _ Hd Hs) as (? & ? & Hst). split; [done|]. split; [done|]. split; [done|].
  rewrite tab_app in Hst by lia. rewrite <- !tab_const.
  rewrite (tab_ext _ (fun _ => fst types) (db_atomType len types)).
  2: { intros i Hi. unfold db_atomType. by rewrite decide_True by lia. }
  rewrite (tab_ext _ (fun _ => snd types) (fun i => db_atomType len types (fst len + i))); [done|].
  intros i Hi. unfold db_atomType. by rewrite decide_False by lia.
Qed.

(** ** Multiblock *)
Lemma sum_shift len c : fold_left Z.add len c = c + fold_left Z.add len 0.
Proof.
  revert c. induction len as [|x l IH]; intros c; cbn; [lia|]. rewrite (IH (c + x)), (IH (0 + x)). lia.
Qed.
Lemma sum_nonneg len : (forall x, x ∈ len -> 1 <= x) -> 0 <= fold_left Z.add len 0.
Proof.
  induction len as [|x l IH]; intros Hp; cbn; [lia|]. rewrite sum_shift.
  assert (1 <= x) by (apply Hp; left). assert (0 <= fold_left Z.add l 0); [|lia]. apply IH. intros. apply Hp. by right.
Qed.
Lemma mb_scan_before b len types ty i : (forall x, x ∈ len -> 1 <= x) -> i < b -> mb_scan ty (begins b len) types i = ty.
Proof.
  intros _ Hi. destruct len; cbn; [done|]. destruct types; [done|]. by rewrite decide_False by lia.
Qed.
Lemma mb_types len : forall types b ty, (forall x, x ∈ len -> 1 <= x) -> length types = length len ->
  tab (fold_left Z.add len 0) (fun i => mb_scan ty (begins b len) types (b + i)) =
  concat (zip_with (fun n t => replicate (Z.to_nat n) t) len types).
Proof.
  induction len as [|n len IH]; intros types b ty Hp Hl; destruct types as [|t types]; try done.
  cbn [fold_left zip_with concat]. rewrite Z.add_0_l, sum_shift.
  assert (1 <= n) by (apply Hp; left).
  assert (Hp' : forall x, x ∈ len -> 1 <= x) by (intros; apply Hp; by right).
  pose proof (sum_nonneg len Hp').
  rewrite tab_app by lia. f_equal.
  - rewrite <- tab_const. apply tab_ext. intros i Hi. cbn [begins mb_scan]. rewrite decide_True by lia.
    apply mb_scan_before; [done|lia].
  - rewrite <- (IH types (b + n) t) by (done || by injection Hl). apply tab_ext. intros i Hi. cbn [begins mb_scan].
    rewrite decide_True by lia. f_equal. lia.
Qed.

Theorem multiblock_topology cap n len types bt o h :
  mb_read cap n len types bt o = Ok h ->
  species_ok (mbSp h) /\ is_valid false (mbSp h) = Ok () /\ spCap (mbSp h) = cap /\
  linear_structure (mbSp h) (fold_left Z.add len 0) (asks (ogHasA o)) (asks (ogHasD o))
    (concat (zip_with (fun n t => replicate (Z.to_nat n) t) len types)) bt (ogTypeA o) (ogTypeD o).
Proof.
  unfold mb_read, mb_build. intros H. apply obind_Ok in H as ([] & Hl & H). apply obind_Ok in H as ([] & Hp & H).
  apply obind_Ok in H as ([] & _ & H). apply obind_Ok in H as (d & Hd & H).
  apply obind_Ok in H as (s & Hs & H). apply obind_Ok in H as ([] & Hv & [= <-]). cbn [mbSp].
  apply check_Ok in Hl. rewrite !andb_true_iff, !bool_decide_eq_true in Hl. destruct Hl as [[? ?] ?].
  apply check_Ok in Hp. rewrite forallb_forall in Hp.
  destruct (linear_read_structure _ _ _ _ _ _ _ Hd Hs) as (? & ? & Hst). split; [done|]. split; [done|]. split; [done|].
  rewrite <- (mb_types len types 0 (-1)); [done| |lia].
  intros x Hx. apply elem_of_list_In in Hx. specialize (Hp x Hx). by apply bool_decide_eq_true in Hp.
Qed.

(** ** HomoRing *)
Lemma ring3_throws id cap ty : hr_read id cap 3 ty = Throw.
Proof.
  unfold hr_read, hr_build.
  assert (E : build_ring cap 3 3 3 3 (fun _ => ty) (fun _ => 0) (fun _ => 0) (fun _ => 0) =
    Ok (SP (-1) cap 3 [ty; ty; ty]
      (GT 3 [SG [0; 1] 0; SG [1; 2] 0; SG [2; 0] 0] [[0; 2]; [0; 1]; [1; 2]])
      (GT 3 [SG [0; 1; 2] 0; SG [1; 2; 0] 0; SG [2; 0; 1] 0] [[0; 1; 2]; [0; 1; 2]; [0; 1; 2]])
      (GT 3 [SG [0; 1; 2; 0] 0; SG [1; 2; 0; 1] 0; SG [2; 0; 1; 2] 0] [[0; 0; 1; 2]; [0; 1; 1; 2]; [0; 1; 2; 2]]))).
  { vm_compute. reflexivity. }
  rewrite E. cbn [obind]. unfold is_valid. cbn [spTypes spNAtom spBond spAngle spDihedral].
  rewrite bool_decide_eq_true_2 by done. cbn [check obind orb].
  destruct (forallb (fun t => bool_decide (0 <= t)) [ty; ty; ty]); cbn [check obind]; [|done].
  assert (E2 : group_valid 2 3 (GT 3 [SG [0; 1] 0; SG [1; 2] 0; SG [2; 0] 0] [[0; 2]; [0; 1]; [1; 2]]) = Ok ()) by (vm_compute; reflexivity).
  assert (E3 : group_valid 3 3 (GT 3 [SG [0; 1; 2] 0; SG [1; 2; 0] 0; SG [2; 0; 1] 0] [[0; 1; 2]; [0; 1; 2]; [0; 1; 2]]) = Ok ()) by (vm_compute; reflexivity).
  assert (E4 : group_valid 4 3 (GT 3 [SG [0; 1; 2; 0] 0; SG [1; 2; 0; 1] 0; SG [2; 0; 1; 2] 0] [[0; 0; 1; 2]; [0; 1; 1; 2]; [0; 1; 2; 2]]) = Throw) by (vm_compute; reflexivity).
  rewrite E2. cbn [obind]. rewrite E3. cbn [obind]. rewrite E4. done.
Qed.

Lemma hr_read_Ok id cap n ty h : hr_read id cap n ty = Ok h ->
  4 <= n /\ is_valid false (ring_sp cap n (fun _ => ty) (fun _ => 0) (fun _ => 0) (fun _ => 0)) = Ok () /\
  h = HR (SP id cap n (tab n (fun _ => ty)) (built n n (rng n 2) (fun _ => 0)) (built n n (rng n 3) (fun _ => 0)) (built n n (rng n 4) (fun _ => 0))) ty.
Proof.
  intros H. destruct (decide (n = 3)) as [->|Hn]; [by rewrite ring3_throws in H|].
  unfold hr_read, hr_build in H. apply obind_Ok in H as (s & Hs & H).
  assert (H3 : 3 <= n).
  { unfold build_ring in Hs. apply obind_Ok in Hs as ([] & Hs & _). by apply check_Ok, bool_decide_eq_true in Hs. }
  rewrite build_ring_Ok in Hs by lia. injection Hs as <-. apply obind_Ok in H as ([] & Hv & [= <-]).
  split; [lia|]. done.
Qed.

Lemma is_valid_id mut s id : is_valid mut (SP id (spCap s) (spNAtom s) (spTypes s) (spBond s) (spAngle s) (spDihedral s)) = is_valid mut s.
Proof. done. Qed.

Theorem homoring_topology id cap n ty h :
  hr_read id cap n ty = Ok h ->
  4 <= n /\ species_ok (hrSp h) /\ is_valid false (hrSp h) = Ok () /\ spCap (hrSp h) = cap /\ spNAtom (hrSp h) = n /\
  spTypes (hrSp h) = replicate (Z.to_nat n) ty /\
  ring_groups n 2 (fun _ => 0) (gtGroups (spBond (hrSp h))) /\
  ring_groups n 3 (fun _ => 0) (gtGroups (spAngle (hrSp h))) /\
  ring_groups n 4 (fun _ => 0) (gtGroups (spDihedral (hrSp h))).
Proof.
  intros H. apply hr_read_Ok in H as (Hn & Hv & ->). cbn [hrSp]. split; [done|].
  split; [exact (ring_sp_ok cap n (fun _ => ty) (fun _ => 0) (fun _ => 0) (fun _ => 0) Hn)|].
  split; [exact Hv|]. split; [done|]. split; [done|]. split; [by rewrite <- tab_const|].
  split; [apply built_ring; lia|]. split; apply built_ring; lia.
Qed.

Theorem homoring_accepted id cap n ty : 4 <= n -> 0 <= ty -> exists h, hr_read id cap n ty = Ok h.
Proof.
  intros Hn Ht. unfold hr_read, hr_build. rewrite build_ring_Ok by done. cbn [obind].
  rewrite linear_made_valid; [cbn; eauto| |by apply ring_sp_ok|].
  - cbn. intros E. apply (f_equal length) in E. rewrite tab_length in E. cbn in E. lia.
  - right. cbn. intros t Hin. apply elem_of_list_fmap in Hin as (? & -> & _). done.
Qed.

(** ** HomopolymerSG *)

(** groups that were allocated but never made are refused *)
Lemma unset_throws k nAtom N : (1 <= k)%nat -> 0 < N -> 0 < nAtom ->
  group_valid k nAtom (GT N (replicate (Z.to_nat N) (sg_new k)) (replicate (Z.to_nat nAtom) [])) = Throw.
Proof.
  intros Hk HN HnA. unfold group_valid. cbn [gtN gtGroups gtIds]. rewrite decide_True by done.
  rewrite !replicate_length. rewrite !bool_decide_eq_true_2 by lia. cbn [check obind].
  destruct (Z.to_nat N) as [|m] eqn:E; [lia|].
  replace (seqZ 0 N) with (0 :: seqZ 1 (N - 1)) by (symmetry; apply (seqZ_cons 0 N); lia).
  cbn [forM]. unfold zget at 1. rewrite decide_True by lia. cbn [replicate Z.to_nat aget lookup list_lookup obind].
  destruct k as [|k]; [lia|]. cbn [seq forM replicate sg_new sgAtoms aget lookup list_lookup obind].
  reflexivity.
Qed.

Lemma hg_read_ad_Ok n o d : hg_read_ad n o = Ok d ->
  hasA d = 0 /\ nA d = nangle (default 0 (ogHasA o)) n /\ hasD d = default 0 (ogHasD o) /\ nD d = ndihedral (hasD d) n /\
  (default 0 (ogHasA o) <> 0 -> 3 <= n) /\ (hasD d <> 0 -> 4 <= n) /\ typeD d = -1.
Proof.
  unfold hg_read_ad, nangle, ndihedral. intros H.
  apply obind_Ok in H as ([na ta] & HA & H). apply obind_Ok in H as ([nd td] & HD & [= <-]). cbn [hasA nA hasD nD typeA typeD].
  split; [done|]. destruct (decide (default 0 (ogHasA o) = 0)) as [EA|EA].
  - injection HA as <- <-. split; [done|]. split; [done|].
    destruct (decide (default 0 (ogHasD o) = 0)) as [ED|ED].
    + injection HD as <- <-. done.
    + apply obind_Ok in HD as ([] & HD & [= <- <-]). apply check_Ok, bool_decide_eq_true in HD. done.
  - apply obind_Ok in HA as ([] & HA & [= <- <-]). apply check_Ok, bool_decide_eq_true in HA. split; [done|]. split; [done|].
    destruct (decide (default 0 (ogHasD o) = 0)) as [ED|ED].
    + injection HD as <- <-. done.
    + apply obind_Ok in HD as ([] & HD & [= <- <-]). apply check_Ok, bool_decide_eq_true in HD. done.
Qed.

(** A parameter file that asks for angles is always refused. *)
Theorem homopolymerSG_angles_throw cap n bt o tys w :
  asks (ogHasA o) = true -> 0 <= n -> exists x, hg_read cap n bt o tys w = x /\ x = Throw.
Proof.
  intros HA Hn. eexists. split; [done|]. unfold asks in HA. rewrite negb_true_iff, bool_decide_eq_false in HA.
  unfold hg_read. destruct (hg_read_ad n o) as [d| |] eqn:Hd; cbn [obind]; [|done|].
  2: { unfold hg_read_ad in Hd. rewrite decide_False in Hd by done.
       apply obind_UB in Hd as [Hd|([? ?] & Hd & Hd2)].
       - apply obind_UB in Hd as [Hd|(? & ? & ?)]; [by destruct (bool_decide _) in Hd|done].
       - apply obind_UB in Hd2 as [Hd2|(? & ? & Hd2)]; [|by destruct x].
         case_decide; [done|]. apply obind_UB in Hd2 as [Hd2|(? & ? & ?)]; [by destruct (bool_decide _) in Hd2|done]. }
  pose proof (hg_read_ad_Ok _ _ _ Hd) as (E1 & E2 & E3 & E4 & E5 & E6 & E7). specialize (E5 HA).
  unfold hg_build. unfold nangle in E2. rewrite decide_False in E2 by done. rewrite E1, E2, E4.
  unfold build_linear. rewrite (bool_decide_eq_true_2 (2 <= n)) by lia.
  rewrite (bool_decide_eq_true_2 (n - 1 = n - 1)) by done. rewrite (bool_decide_eq_true_2 (0 = 0)) by done. cbn [check obind orb].
  assert (ED : bool_decide (hasD d = 0) || (if decide (3 < n) then bool_decide (ndihedral (hasD d) n = n - 3) else bool_decide (ndihedral (hasD d) n = 0)) = true).
  { unfold ndihedral. destruct (decide (hasD d = 0)); [by rewrite bool_decide_eq_true_2 by done|].
    apply orb_true_intro. right. specialize (E6 ltac:(done)). rewrite decide_True by lia. by apply bool_decide_eq_true. }
  rewrite ED. cbn [check obind]. clear ED.
  assert (0 <= ndihedral (hasD d) n) by by_nangle.
  rewrite alloc_atoms_Ok, !alloc_groups_Ok by lia. cbn [obind].
  rewrite set_types by lia. cbn [obind].
  rewrite (foldM_ext _ (fun g i => make_group 4 g i (lin 2 i) bt)) by (intros; by rewrite lin2).
  pose proof (make_lin 2 4 n (fun _ => bt)) as HB. replace (n + 1 - Z.of_nat 2) with (n - 1) in HB by lia.
  rewrite HB by lia. cbn [obind]. rewrite (decide_True (P := 0 = 0)) by done. cbn [obind].
  assert (EDD : (if decide (hasD d = 0) then Ok (GT (ndihedral (hasD d) n) (replicate (Z.to_nat (ndihedral (hasD d) n)) (sg_new 4)) (replicate (Z.to_nat n) [])) else
             foldM (fun g i => make_group 72 g i [i; i + 1; i + 2; i + 3] (typeD d))
              (GT (ndihedral (hasD d) n) (replicate (Z.to_nat (ndihedral (hasD d) n)) (sg_new 4)) (replicate (Z.to_nat n) [])) (seqZ 0 (ndihedral (hasD d) n)))
           = Ok (built n (ndihedral (hasD d) n) (lin 4) (fun _ => typeD d))).
  { unfold ndihedral. destruct (decide (hasD d = 0)) as [E|E].
    - by rewrite (built_0 4 n (lin 4) (fun _ => typeD d)).
    - specialize (E6 E).
      rewrite (foldM_ext _ (fun g i => make_group 72 g i (lin 4 i) (typeD d))) by (intros; by rewrite lin4).
      pose proof (make_lin 4 72 n (fun _ => typeD d)) as HG. replace (n + 1 - Z.of_nat 4) with (n - 3) in HG by lia.
      apply HG; lia. }
  rewrite EDD. cbn [obind]. unfold is_valid. cbn [spTypes spNAtom spBond spAngle spDihedral].
  destruct (tab n (fun _ : Z => -1)) as [|t ts] eqn:Et.
  { apply (f_equal length) in Et. rewrite tab_length in Et. cbn in Et. lia. }
  rewrite <- Et, tab_length. rewrite bool_decide_eq_true_2 by lia. cbn [check obind orb].
  rewrite group_valid_ok by (apply built_lin_ok; lia). cbn [obind].
  rewrite unset_throws by lia. done.
Qed.

(** what is accepted is a chain, but its dihedrals never have the type given in the file *)
Theorem homopolymerSG_topology cap n bt o tys w h :
  hg_read cap n bt o tys w = Ok h ->
  asks (ogHasA o) = false /\ species_ok (hgSp h) /\ is_valid true (hgSp h) = Ok () /\ spCap (hgSp h) = cap /\
  linear_structure (hgSp h) n false (asks (ogHasD o)) (replicate (Z.to_nat n) (-1)) bt (-1) (-1).
Proof.
  intros H. assert (Hn : 2 <= n).
  { unfold hg_read, hg_build in H. apply obind_Ok in H as (d & Hd & H). apply obind_Ok in H as (s & Hs & _).
    by apply build_linear_ge2 in Hs. }
  destruct (asks (ogHasA o)) eqn:EA.
  { destruct (homopolymerSG_angles_throw cap n bt o tys w EA) as (x & Hx & ->); [lia|congruence]. }
  split; [done|]. unfold asks in EA. rewrite negb_false_iff, bool_decide_eq_true in EA.
  unfold hg_read, hg_build in H. apply obind_Ok in H as (d & Hd & H). apply obind_Ok in H as (s & Hs & H).
  apply obind_Ok in H as ([] & Hv & [= <-]). cbn [hgSp].
  pose proof (hg_read_ad_Ok _ _ _ Hd) as (E1 & E2 & E3 & E4 & E5 & E6 & E7). rewrite EA in E2.
  rewrite E1, E2, E4, build_linear_Ok in Hs by done. injection Hs as <-.
  split; [by apply linear_sp_ok|]. split; [done|]. split; [done|].
  unfold asks. rewrite <- E3.
  pose proof (linear_sp_structure cap n 0 (hasD d) (fun _ => -1) bt (-1) (-1) Hn ltac:(done) E6) as Hst.
  rewrite (bool_decide_eq_true_2 (0 = 0)) in Hst by done. cbn [negb] in Hst. rewrite tab_const in Hst. rewrite E7.
  destruct Hst as (H1 & H2 & H3 & H4 & H5 & H6). split; [done|]. split; [done|]. split; [done|]. split; [done|]. split; [|done].
  cbn zeta in *. destruct H5 as [? [? ?]]. split; [done|]. split; [done|]. intros i g Hg. apply lookup_lt_Some in Hg. cbn [linear_sp built spAngle gtGroups] in Hg.
  rewrite tab_length in Hg. change (nangle 0 n) with 0 in Hg. cbn in Hg. lia.
Qed.

(** ** Point *)
Theorem point_topology cap ty p : pt_read cap ty = Ok p ->
  species_ok (ptSp p) /\ is_valid false (ptSp p) = Ok () /\ spCap (ptSp p) = cap /\ spNAtom (ptSp p) = 1 /\ spTypes (ptSp p) = [ty].
Proof.
  unfold pt_read, pt_build. rewrite alloc_atoms_Ok, !alloc_groups_Ok by lia. cbn [obind].
  change (zset (tab 1 (fun _ => -1)) 0 ty) with (Ok [ty]). cbn [obind]. intros H. apply obind_Ok in H as ([] & Hv & [= <-]).
  cbn [ptSp spCap spNAtom spTypes]. split; [|done]. unfold species_ok. cbn [spTypes spNAtom spBond spAngle spDihedral].
  split; [done|]. split; [apply (empty_table_ok 2 1); done|]. split; [apply (empty_table_ok 3 1); done|apply (empty_table_ok 4 1); done].
Qed.

(** ** isValid accepts exactly the consistent species *)
Theorem isValid_exact mut s :
  spTypes s <> [] -> table_made 2 (spNAtom s) (spBond s) -> table_made 3 (spNAtom s) (spAngle s) ->
  table_made 4 (spNAtom s) (spDihedral s) ->
  is_valid mut s = Ok () <-> species_ok s /\ (mut = true \/ forall t, t ∈ spTypes s -> 0 <= t).
Proof. apply is_valid_iff. Qed.

(** ** Examples *)
Example ex_hp : exists h, hp_read 10 5 0 1 (OG (Some 1) 2 (Some 1) 3) = Ok h /\
  gtGroups (spDihedral (hpSp h)) = [SG [0; 1; 2; 3] 3; SG [1; 2; 3; 4] 3] /\
  gtIds (spBond (hpSp h)) = [[0]; [0; 1]; [1; 2]; [2; 3]; [3]].
Proof. eexists. split; [vm_compute; reflexivity|]. done. Qed.
Example ex_mb : exists h, mb_read 10 3 [2; 1; 2] [0; 1; 0] 0 (OG None 0 None 0) = Ok h /\ spTypes (mbSp h) = [0; 0; 1; 0; 0].
Proof. eexists. split; [vm_compute; reflexivity|]. done. Qed.
Example ex_db : exists h, db_read 10 (2, 3) (0, 1) 0 (OG (Some 1) 7 None 0) = Ok h /\ spTypes (dbSp h) = [0; 0; 1; 1; 1].
Proof. eexists. split; [vm_compute; reflexivity|]. done. Qed.
Example ex_hr : exists h, hr_read 0 10 5 1 = Ok h /\ map sgAtoms (gtGroups (spAngle (hrSp h))) = [[0; 1; 2]; [1; 2; 3]; [2; 3; 4]; [3; 4; 0]; [4; 0; 1]].
Proof. eexists. split; [vm_compute; reflexivity|]. done. Qed.
Example ex_hg : exists h, hg_read 10 5 0 (OG None 0 (Some 1) 2) (0, 1) 0 = Ok h /\
  map sgType (gtGroups (spDihedral (hgSp h))) = [-1; -1].
Proof. eexists. split; [vm_compute; reflexivity|]. done. Qed.
(** isValid refuses a bond of an atom with itself, and an atom that lists a bond twice *)
Example ex_invalid :
  is_valid false (SP 0 1 2 [0; 0] (GT 1 [SG [0; 0] 0] [[0; 0]; []]) (GT 0 [] [[]; []]) (GT 0 [] [[]; []])) = Throw /\
  is_valid false (SP 0 1 2 [0; 0] (GT 1 [SG [0; 1] 0] [[0; 0]; [0]]) (GT 0 [] [[]; []]) (GT 0 [] [[]; []])) = Throw /\
  is_valid false (SP 0 1 2 [0; 0] (GT 1 [SG [0; 1] 0] [[0]; [0]]) (GT 0 [] [[]; []]) (GT 0 [] [[]; []])) = Ok ().
Proof. vm_compute. done. Qed.

(** The groups a parameter file asks for: false for HomopolymerSG, whose reader drops the dihedral type. *)
Theorem homopolymerSG_dihedral_type_refuted :
  exists cap n bt o tys w h, hg_read cap n bt o tys w = Ok h /\ asks (ogHasD o) = true /\
    exists g, gtGroups (spDihedral (hgSp h)) !! 0%nat = Some g /\ sgType g <> ogTypeD o.
Proof.
  exists 10, 5, 0, (OG None 0 (Some 1) 2), (0, 1), 0. eexists. split; [vm_compute; reflexivity|]. split; [done|].
  eexists. split; [done|]. done.
Qed.

Print Assumptions homopolymer_topology.
Print Assumptions homopolymer_accepted.
Print Assumptions diblock_topology.
Print Assumptions multiblock_topology.
Print Assumptions homoring_topology.
Print Assumptions homoring_accepted.
Print Assumptions homopolymerSG_topology.
Print Assumptions homopolymerSG_angles_throw.
Print Assumptions point_topology.
Print Assumptions isValid_exact.
Print Assumptions homopolymerSG_dihedral_type_refuted.
