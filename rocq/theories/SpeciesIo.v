(** Archives and text files of species. *)
From Verif Require Import Base SpeciesModel SpeciesSpec SpeciesProofs SpeciesBuild SpeciesProps.
Local Open Scope Z_scope.

(** * Archives *)

Lemma rdIs_map l rest : rdIs (length l) (map AI l ++ rest) = Ok (l, rest).
Proof. induction l as [|z l IH]; cbn; [done|]. rewrite IH. done. Qed.
Lemma rdArr_wArr n l rest : Z.of_nat (length l) = n -> rdArr (Z.to_nat n) (wArr l ++ rest) = Ok (l, rest).
Proof.
  intros <-. unfold rdArr, wArr. rewrite <- app_comm_cons. cbn [rdI obind]. rewrite Nat2Z.id, bool_decide_eq_true_2 by done.
  cbn [check obind]. apply rdIs_map.
Qed.
Lemma rdOpt_wOpt old v act rest : (act = false -> v = old) -> rdOpt old (wOpt v act ++ rest) = Ok (v, rest).
Proof. intros H. destruct act; cbn; [done|]. by rewrite (H eq_refl). Qed.

(** angles and dihedrals; [ad_ok] is what the readers establish *)
Definition ad_ok (n : Z) (d : adinfo) : Prop :=
  nA d = nangle (hasA d) n /\ nD d = ndihedral (hasD d) n /\
  (hasA d <> 0 -> 3 <= n) /\ (hasD d <> 0 -> 4 <= n) /\ (hasA d = 0 -> typeA d = -1) /\ (hasD d = 0 -> typeD d = -1).

Lemma read_ad_ad_ok n o d : read_ad n o = Ok d -> ad_ok n d.
Proof.
  intros H. apply read_ad_Ok in H as (E1 & E2 & E3 & E4 & E5 & E6 & E7 & E8). unfold ad_ok.
  split; [done|]. split; [done|]. split; [intros; by apply E5|]. split; [intros; by apply E6|]. done.
Qed.

Lemma load_ad_hp_save n d rest : ad_ok n d ->
  load_ad_hp n (save_ad (fun v => negb (bool_decide (v = 0))) d ++ rest) = Ok (d, rest).
Proof.
  intros (E1 & E2 & E3 & E4 & E5 & E6). unfold load_ad_hp, save_ad. rewrite <- !app_assoc.
  destruct d as [ha na ta hd nd td]. cbn [hasA nA typeA hasD nD typeD] in *. unfold nangle, ndihedral in *.
  rewrite rdOpt_wOpt by (rewrite negb_false_iff, bool_decide_eq_true; done). cbn [obind].
  destruct (decide (ha = 0)) as [->|Ha].
  - rewrite (decide_False (P := 0 <> 0 /\ 0 < na)) by (intros [? ?]; done). cbn [app obind].
    rewrite rdOpt_wOpt by (rewrite negb_false_iff, bool_decide_eq_true; done). cbn [obind].
    destruct (decide (hd = 0)) as [->|Hd].
    + rewrite (decide_False (P := 0 <> 0 /\ 0 < nd)) by (intros [? ?]; done). cbn [app obind]. subst na nd. rewrite E5, E6 by done. done.
    + specialize (E4 Hd). rewrite (decide_True (P := 3 < n)) by lia. rewrite (decide_True (P := 0 < n - 3)) by lia.
      rewrite (decide_True (P := hd <> 0 /\ 0 < nd)) by (subst nd; split; [done|lia]). cbn [app rdI obind]. subst na nd. rewrite E5 by done. done.
  - specialize (E3 Ha). rewrite (decide_True (P := 0 < n - 1 - 1)) by lia.
    rewrite (decide_True (P := ha <> 0 /\ 0 < na)) by (subst na; split; [done|lia]). cbn [app rdI obind].
    rewrite rdOpt_wOpt by (rewrite negb_false_iff, bool_decide_eq_true; done). cbn [obind].
    replace (n - 1 - 1) with na by lia.
    destruct (decide (hd = 0)) as [->|Hd].
    + rewrite (decide_False (P := 0 <> 0 /\ 0 < nd)) by (intros [? ?]; done). cbn [app obind]. subst nd. rewrite E6 by done. done.
    + specialize (E4 Hd). rewrite (decide_True (P := 3 < n)) by lia. rewrite (decide_True (P := 0 < n - 3)) by lia.
      rewrite (decide_True (P := hd <> 0 /\ 0 < nd)) by (subst nd; split; [done|lia]). cbn [app rdI obind]. subst nd. done.
Qed.

Lemma load_ad_db_save n d rest : ad_ok n d -> load_ad_db n (save_ad (fun _ => true) d ++ rest) = Ok (d, rest).
Proof.
  intros (E1 & E2 & E3 & E4 & E5 & E6). unfold load_ad_db, save_ad. rewrite <- !app_assoc.
  destruct d as [ha na ta hd nd td]. cbn [hasA nA typeA hasD nD typeD] in *. unfold nangle, ndihedral in *.
  rewrite rdOpt_wOpt by done. cbn [obind].
  destruct (decide (ha = 0)) as [->|Ha].
  - rewrite (decide_False (P := 0 <> 0 /\ 0 < na)) by (intros [? ?]; done). cbn [app obind].
    rewrite rdOpt_wOpt by done. cbn [obind].
    destruct (decide (hd = 0)) as [->|Hd].
    + rewrite (decide_False (P := 0 <> 0 /\ 0 < nd)) by (intros [? ?]; done). cbn [app obind]. subst na nd. rewrite E5, E6 by done. done.
    + specialize (E4 Hd). rewrite bool_decide_eq_true_2 by lia.
      rewrite (decide_True (P := hd <> 0 /\ 0 < nd)) by (subst nd; split; [done|lia]). cbn [check app rdI obind]. subst na nd. rewrite E5 by done. done.
  - specialize (E3 Ha). rewrite bool_decide_eq_true_2 by lia.
    rewrite (decide_True (P := ha <> 0 /\ 0 < na)) by (subst na; split; [done|lia]). cbn [check app rdI obind].
    rewrite rdOpt_wOpt by done. cbn [obind]. subst na.
    destruct (decide (hd = 0)) as [->|Hd].
    + rewrite (decide_False (P := 0 <> 0 /\ 0 < nd)) by (intros [? ?]; done). cbn [app obind]. subst nd. rewrite E6 by done. done.
    + specialize (E4 Hd). rewrite bool_decide_eq_true_2 by lia.
      rewrite (decide_True (P := hd <> 0 /\ 0 < nd)) by (subst nd; split; [done|lia]). cbn [check app rdI obind]. subst nd. done.
Qed.

Lemma build_linear_fields cap n nB nA nD hA hD tA tB tG tD s :
  build_linear cap n nB nA nD hA hD tA tB tG tD = Ok s -> spCap s = cap /\ spNAtom s = n.
Proof.
  unfold build_linear. intros H. do 12 (apply obind_Ok in H as (? & _ & H)). by injection H as <-.
Qed.

(** ** Homopolymer, Diblock, Point *)
Theorem homopolymer_archive cap n at_ bt o h rest :
  hp_read cap n at_ bt o = Ok h -> hp_load (hp_save h ++ rest) = Ok (h, rest).
Proof.
  unfold hp_read. intros H. apply obind_Ok in H as (d & Hd & H). assert (Hb := H).
  unfold hp_build in H. apply obind_Ok in H as (s & Hs & H). apply obind_Ok in H as ([] & _ & [= <-]).
  apply build_linear_fields in Hs as [Hc Hn].
  unfold hp_load, hp_save. cbn [hpSp hpAtomType hpBondType hpAd]. rewrite <- app_assoc. cbn [app rdI obind].
  rewrite Hc, Hn. rewrite load_ad_hp_save by eauto using read_ad_ad_ok. cbn [obind]. rewrite Hb. done.
Qed.

Theorem diblock_archive cap len types bt o h rest :
  db_read cap len types bt o = Ok h -> db_load (db_save h ++ rest) = Ok (h, rest).
Proof.
  unfold db_read. intros H. apply obind_Ok in H as ([] & Hl & H). apply obind_Ok in H as (d & Hd & H). assert (Hb := H).
  unfold db_build in H. apply obind_Ok in H as (s & Hs & H). apply obind_Ok in H as ([] & _ & [= <-]).
  apply build_linear_fields in Hs as [Hc Hn].
  unfold db_load, db_save. cbn [dbSp dbLen dbTypes dbBondType dbAd]. rewrite <- app_assoc. cbn [app rdI obind].
  rewrite Hc, Hl. cbn [obind]. rewrite load_ad_db_save by eauto using read_ad_ad_ok. cbn [obind].
  destruct len, types. cbn [fst snd] in *. rewrite Hb. done.
Qed.

Theorem point_archive cap ty p rest : pt_read cap ty = Ok p -> pt_load (pt_save p ++ rest) = Ok (p, rest).
Proof.
  intros H. assert (Hb := H). unfold pt_read, pt_build in H. rewrite alloc_atoms_Ok, !alloc_groups_Ok in H by lia.
  cbn [obind] in H. change (zset (tab 1 (fun _ => -1)) 0 ty) with (Ok [ty]) in H. cbn [obind] in H.
  apply obind_Ok in H as ([] & Hv & [= <-]). unfold pt_load, pt_save. cbn [ptSp ptType spCap app rdI obind].
  unfold pt_read in Hb. rewrite Hb. done.
Qed.

(** ** HomopolymerSG: everything but the (unused) angle type *)
Theorem homopolymerSG_archive cap n bt o tys w h rest :
  hg_read cap n bt o tys w = Ok h ->
  exists h', hg_load (hg_save h ++ rest) = Ok (h', rest) /\
    hgSp h' = hgSp h /\ hgBondType h' = hgBondType h /\ hgTypeIds h' = hgTypeIds h /\ hgRatio h' = hgRatio h.
Proof.
  intros H. destruct (homopolymerSG_topology _ _ _ _ _ _ _ H) as (EA & _ & _ & _ & _).
  unfold asks in EA. rewrite negb_false_iff, bool_decide_eq_true in EA.
  unfold hg_read in H. apply obind_Ok in H as (d & Hd & H).
  pose proof (hg_read_ad_Ok _ _ _ Hd) as (E1 & E2 & E3 & E4 & E5 & E6 & E7). rewrite EA in E2. cbn in E2.
  unfold hg_build in H. apply obind_Ok in H as (s & Hs & H). apply obind_Ok in H as ([] & Hv & [= <-]).
  pose proof (build_linear_fields _ _ _ _ _ _ _ _ _ _ _ _ Hs) as [Hc Hn].
  set (d' := AD' 0 0 (-1) (hasD d) (nD d) (typeD d)).
  exists (HG s bt d' tys w). unfold hg_load, hg_save. cbn [hgSp hgBondType hgTypeIds hgRatio hgAd].
  assert (Es : save_ad (fun v => negb (bool_decide (v = 0))) d = save_ad (fun v => negb (bool_decide (v = 0))) d').
  { unfold save_ad, d'. rewrite E1, E2. cbn [hasA nA typeA hasD nD typeD]. done. }
  rewrite Es, <- !app_assoc. cbn [app rdI obind]. rewrite Hn.
  rewrite load_ad_hp_save.
  2: { unfold ad_ok, d'. cbn [hasA nA typeA hasD nD typeD]. split; [done|]. split; [done|]. split; [done|]. split; [done|].
       split; [done|]. intros _. done. }
  cbn [obind rdI rdD]. unfold hg_build, d'. cbn [hasA nA typeA hasD nD typeD].
  assert (Hs' : build_linear cap n (n - 1) 0 (nD d) 0 (hasD d) (fun _ => -1) (fun _ => bt) (fun _ => -1) (fun _ => typeD d) = Ok s).
  { rewrite E1, E2, E4 in Hs. rewrite E4.
    pose proof (build_linear_Ok cap n 0 (hasD d) (fun _ => -1) (fun _ => bt) (fun _ => typeA d) (fun _ => typeD d)
      (build_linear_ge2 _ _ _ _ _ _ _ _ _ _ _ _ Hs) ltac:(done) E6) as H1.
    pose proof (build_linear_Ok cap n 0 (hasD d) (fun _ => -1) (fun _ => bt) (fun _ => -1) (fun _ => typeD d)
      (build_linear_ge2 _ _ _ _ _ _ _ _ _ _ _ _ Hs) ltac:(done) E6) as H2.
    change (nangle 0 n) with 0 in *. rewrite H2. rewrite H1 in Hs. injection Hs as <-. done. }
  rewrite Hc, Hs'. cbn [obind]. rewrite Hv. cbn [obind]. destruct tys. done.
Qed.

(** ** Multiblock and HomoRing: not reproduced *)
Theorem multiblock_archive_refuted :
  exists cap n len types bt o h, mb_read cap n len types bt o = Ok h /\ mb_load (mb_save h) = Throw.
Proof.
  exists 10, 3, [2; 1; 2], [0; 1; 0], 0, (OG None 0 None 0). eexists. split; [vm_compute; reflexivity|]. vm_compute. done.
Qed.
(** the loaded ring can even be another, valid, ring *)
Theorem homoring_archive_refuted :
  exists id cap n ty h h' rest, hr_read id cap n ty = Ok h /\ hr_load id (hr_save h) = Ok (h', rest) /\
    spNAtom (hrSp h') <> spNAtom (hrSp h) /\ spCap (hrSp h') <> spCap (hrSp h) /\ rest <> [].
Proof.
  exists 0, 10, 5, 1. eexists. eexists. eexists. split; [vm_compute; reflexivity|]. split; [vm_compute; reflexivity|].
  vm_compute. done.
Qed.

(** ** General species *)
Lemma rdGroupN_wGroups k gs rest : Forall (fun g => length (sgAtoms g) = k) gs ->
  rdGroupN k (length gs) (concat (map wGroup gs) ++ rest) = Ok (gs, rest).
Proof.
  induction gs as [|g gs IH]; intros Hf; cbn [length rdGroupN map concat app]; [done|].
  inversion Hf as [|? ? Hk Hf']; subst. unfold rdGroup, wGroup at 1. rewrite <- !app_assoc.
  rewrite rdIs_map. cbn [app obind rdI]. rewrite IH by done. cbn [obind]. by destruct g.
Qed.
Lemma rdGroups_wGroups k g rest : 0 <= gtN g -> Z.of_nat (length (gtGroups g)) = gtN g ->
  Forall (fun g => length (sgAtoms g) = k) (gtGroups g) ->
  rdGroups k (wGroups g ++ rest) = Ok (gtN g, gtGroups g, rest).
Proof.
  intros Hn Hl Hf. unfold rdGroups, wGroups. rewrite <- app_comm_cons. cbn [rdI obind].
  rewrite bool_decide_eq_true_2 by done. cbn [check obind]. case_decide as Hp.
  - rewrite <- app_comm_cons. cbn [rdI obind]. rewrite bool_decide_eq_true_2 by done. cbn [check obind].
    rewrite <- Hl, Nat2Z.id, rdGroupN_wGroups by done. done.
  - cbn [app]. assert (gtN g = 0) as E by lia. rewrite E in *. destruct (gtGroups g); [done|cbn in Hl; lia].
Qed.

Lemma sp_groups_Ok k M nAtom n gs g : sp_groups k M nAtom n gs = Ok g ->
  0 < nAtom /\ 0 <= n /\ Z.of_nat (length gs) = n /\ gtN g = n /\ gtGroups g = gs /\ gtIds g = replicate (Z.to_nat nAtom) [].
Proof.
  unfold sp_groups. intros H. apply obind_Ok in H as (g' & Hg & H). apply obind_Ok in H as ([] & Hl & H).
  apply check_Ok, bool_decide_eq_true in Hl.
  assert (0 < nAtom /\ 0 <= n) as [Ha Hn].
  { unfold alloc_groups in Hg. apply obind_Ok in Hg as ([] & H1 & Hg). apply obind_Ok in Hg as ([] & H2 & _).
    apply check_Ok, bool_decide_eq_true in H1, H2. done. }
  rewrite alloc_groups_Ok in Hg by done. injection Hg as <-. cbn [gtIds] in H.
  case_decide; injection H as <-; cbn [gtN gtGroups gtIds]; repeat (split; [done|]); [done|].
  split; [|done]. assert (n = 0) by lia. subst n. destruct gs; [done|cbn in *; lia].
Qed.
Lemma init_ids_fields M nAtom g g' : init_ids M nAtom g = Ok g' -> gtN g' = gtN g /\ gtGroups g' = gtGroups g.
Proof.
  unfold init_ids. intros H. apply obind_Ok in H as ([] & _ & H). case_decide; [|by injection H as <-].
  do 3 (apply obind_Ok in H as ([] & _ & H)). apply obind_Ok in H as (? & _ & [= <-]). done.
Qed.

Lemma sp_build_Ok cap n types nb bs na as_ nd ds s :
  sp_build cap n types nb bs na as_ nd ds = Ok s ->
  spId s = -1 /\ spCap s = cap /\ spNAtom s = n /\ 0 < n /\ spTypes s = types /\ Z.of_nat (length types) = n /\
  (gtN (spBond s) = nb /\ gtGroups (spBond s) = bs /\ 0 <= nb /\ Z.of_nat (length bs) = nb) /\
  (gtN (spAngle s) = na /\ gtGroups (spAngle s) = as_ /\ 0 <= na /\ Z.of_nat (length as_) = na) /\
  (gtN (spDihedral s) = nd /\ gtGroups (spDihedral s) = ds /\ 0 <= nd /\ Z.of_nat (length ds) = nd).
Proof.
  unfold sp_build. intros H. apply obind_Ok in H as (ts & Ha & H). apply obind_Ok in H as ([] & Hl & H).
  apply check_Ok, bool_decide_eq_true in Hl.
  apply obind_Ok in H as (gb & Hb & H). apply obind_Ok in H as (ga & Hg & H). apply obind_Ok in H as (gd & Hd & H).
  apply obind_Ok in H as (gb' & Hb' & H). apply obind_Ok in H as (ga' & Hg' & H). apply obind_Ok in H as (gd' & Hd' & H).
  apply obind_Ok in H as ([] & Hv & [= <-]). cbn [spId spCap spNAtom spTypes spBond spAngle spDihedral].
  apply sp_groups_Ok in Hb as (? & ? & ? & ? & ? & ?), Hg as (? & ? & ? & ? & ? & ?), Hd as (? & ? & ? & ? & ? & ?).
  apply init_ids_fields in Hb' as [? ?], Hg' as [? ?], Hd' as [? ?].
  repeat (split; [congruence || done|]). repeat split; congruence || done.
Qed.

(** The number of atoms in a group is part of its C++ type. *)
Definition arity (k : nat) (gs : list sgroup) : Prop := Forall (fun g => length (sgAtoms g) = k) gs.

Theorem species_archive cap n types nb bs na as_ nd ds s rest :
  arity 2 bs -> arity 3 as_ -> arity 4 ds ->
  sp_build cap n types nb bs na as_ nd ds = Ok s -> sp_load (sp_save s ++ rest) = Ok (s, rest).
Proof.
  intros H2 H3 H4 H. assert (Hb := H).
  apply sp_build_Ok in H as (_ & E1 & E2 & Hn & E3 & Hl & (B1 & B2 & B3 & B4) & (A1 & A2 & A3 & A4) & (D1 & D2 & D3 & D4)).
  unfold sp_load, sp_save. rewrite <- !app_assoc. cbn [app rdI obind]. rewrite E2, E1.
  rewrite bool_decide_eq_true_2 by done. cbn [check obind]. rewrite E3. rewrite rdArr_wArr by done. cbn [obind].
  rewrite rdGroups_wGroups by (rewrite ?B1, ?B2; done). cbn [obind].
  rewrite rdGroups_wGroups by (rewrite ?A1, ?A2; done). cbn [obind].
  rewrite rdGroups_wGroups by (rewrite ?D1, ?D2; done). cbn [obind].
  rewrite B1, B2, A1, A2, D1, D2, Hb. done.
Qed.

(** * Text files *)

Definition no_label (rest : list stok) : Prop := match rest with TL _ :: _ => False | _ => True end.

Lemma sreads_map l rest : sreads (length l) (map TI l ++ rest) = (l, rest).
Proof. induction l as [|z l IH]; cbn; [done|]. rewrite IH. done. Qed.
Lemma ssreads_map l rest : ssreads (length l) (map TI l ++ rest) = Ok (l, rest).
Proof. induction l as [|z l IH]; cbn; [done|]. rewrite IH. done. Qed.

Lemma concat_imap_snoc {A B} (f : nat -> A -> list B) l x :
  concat (imap f (l ++ [x])) = concat (imap f l) ++ f (length l) x.
Proof. rewrite imap_app, concat_app. cbn. by rewrite app_nil_r, Nat.add_0_r. Qed.

(** a general fact about loops that consume one line of text per element *)
Lemma foldM_lines {A S} (lines : nat -> A -> list stok) (step : S * list stok -> Z -> outcome (S * list stok)) (st : list A -> S) :
  forall l rest,
  (forall l1 x l2 rest, l = l1 ++ x :: l2 -> step (st l1, lines (length l1) x ++ rest) (Z.of_nat (length l1)) = Ok (st (l1 ++ [x]), rest)) ->
  foldM step (st [], concat (imap lines l) ++ rest) (seqZ 0 (Z.of_nat (length l))) = Ok (st l, rest).
Proof.
  intros l. assert (G : forall l2 l1 rest, 
    (forall la x lb rest, l1 ++ l2 = la ++ x :: lb -> step (st la, lines (length la) x ++ rest) (Z.of_nat (length la)) = Ok (st (la ++ [x]), rest)) ->
    foldM step (st l1, concat (imap (fun i => lines (length l1 + i)%nat) l2) ++ rest) (seqZ (Z.of_nat (length l1)) (Z.of_nat (length l2))) = Ok (st (l1 ++ l2), rest)).
  { induction l2 as [|x l2 IH]; intros l1 rest H.
    - cbn. by rewrite app_nil_r.
    - rewrite seqZ_cons by (cbn; lia). cbn [foldM imap concat]. rewrite <- app_assoc. rewrite Nat.add_0_r.
      rewrite (H l1 x l2) by done. cbn [obind].
      specialize (IH (l1 ++ [x]) rest). rewrite app_length in IH. cbn [length] in IH.
      replace (Z.succ (Z.of_nat (length l1))) with (Z.of_nat (length l1 + 1)) by lia.
      replace (Z.pred (Z.of_nat (length (x :: l2)))) with (Z.of_nat (length l2)) by (cbn [length]; lia).
      rewrite <- app_assoc in IH. cbn [app] in IH. rewrite <- IH by done.
      do 3 f_equal. f_equal. apply imap_ext. intros i y _. unfold compose. f_equal. lia. }
  intros rest H. apply (G l [] rest). intros la x lb r Heq. by apply (H la x lb).
Qed.

Lemma smatch_none lab rest : no_label rest -> smatch lab rest = (false, rest).
Proof. by destruct rest as [|[| |] rest]. Qed.
Lemma w_section_none lab lab' g rest : lab <> lab' -> smatch lab rest = (false, rest) ->
  smatch lab (w_section lab' g ++ rest) = (false, w_section lab' g ++ rest).
Proof. intros Hne H. unfold w_section. case_decide; [|done]. cbn [app smatch]. by rewrite decide_False by congruence. Qed.

(** ** matchStructure on the text of the same species *)

Lemma match_line k n (cmp : nat -> Z -> outcome Z) b atoms :
  length atoms = k -> (forall p a, atoms !! p = Some a -> cmp p b = Ok a) ->
  foldM (fun m '(p, z) => let? a := cmp p b in Ok (m && bool_decide (z = a))) n (imap (fun p z => (p, z)) atoms) = Ok n.
Proof.
  intros _ H.
  assert (G : forall l2 l1 : list Z, l1 ++ l2 = atoms ->
    foldM (fun m '(p, z) => let? a := cmp p b in Ok (m && bool_decide (z = a))) n (imap (fun p z => ((length l1 + p)%nat, z)) l2) = Ok n).
  { induction l2 as [|z l2 IH]; intros l1 E; [done|]. cbn [imap foldM]. rewrite Nat.add_0_r.
    rewrite (H (length l1) z) by (subst; rewrite lookup_app_r, Nat.sub_diag by lia; done). cbn [obind].
    rewrite bool_decide_eq_true_2, andb_true_r by done. cbn [obind].
    specialize (IH (l1 ++ [z])). rewrite app_length, <- app_assoc in IH. cbn in IH. rewrite <- (IH E). f_equal.
    apply imap_ext. intros i y _. unfold compose. f_equal. lia. }
  specialize (G atoms [] eq_refl). cbn in G. done.
Qed.

Lemma match_section_own k lab g cmp rest :
  Z.of_nat (length (gtGroups g)) = gtN g -> arity k (gtGroups g) ->
  (forall b gr p a, gtGroups g !! b = Some gr -> sgAtoms gr !! p = Some a -> cmp p (Z.of_nat b) = Ok a) ->
  (gtN g <= 0 -> smatch lab rest = (false, rest)) ->
  match_section k lab (gtN g) cmp true (w_section lab g ++ rest) = Ok (true, rest).
Proof.
  intros Hl Hk Hcmp Hrest. unfold match_section, w_section. case_decide as Hp.
  - cbn [app smatch]. rewrite decide_True by done. cbn [sread]. rewrite (bool_decide_eq_true_2 (gtN g = gtN g)) by done. cbn [andb].
    rewrite <- Hl. unfold w_lines.
    apply (foldM_lines (fun i g => TI (Z.of_nat i) :: map TI (sgAtoms g) ++ [TI (sgType g)]) _ (fun _ => true)).
    intros l1 gr l2 rest' E. cbn [app sread].
    assert (Hlk : gtGroups g !! length l1 = Some gr) by (rewrite E, lookup_app_r, Nat.sub_diag by lia; done).
    assert (length (sgAtoms gr) = k) as <- by (unfold arity in Hk; rewrite Forall_lookup in Hk; eauto).
    rewrite <- app_assoc, sreads_map. cbn [app sread].
    rewrite (match_line (length (sgAtoms gr)) true cmp (Z.of_nat (length l1))); [done|done|]. intros p a Hpa. eauto.
  - cbn [app]. rewrite Hrest by lia. done.
Qed.

Lemma group_atom_Ok gs b gr p a : gs !! b = Some gr -> sgAtoms gr !! p = Some a -> group_atom gs p (Z.of_nat b) = Ok a.
Proof.
  intros Hg Ha. unfold group_atom. assert (zget gs (Z.of_nat b) = Ok gr) as -> by (apply zget_Ok; split; [lia|by rewrite Nat2Z.id]).
  cbn [obind]. by apply aget_Ok.
Qed.

(** structures as all readers leave them *)
Definition structure_wf (s : species) : Prop :=
  0 <= spNAtom s /\ Z.of_nat (length (spTypes s)) = spNAtom s /\
  (Z.of_nat (length (gtGroups (spBond s))) = gtN (spBond s) /\ arity 2 (gtGroups (spBond s))) /\
  (Z.of_nat (length (gtGroups (spAngle s))) = gtN (spAngle s) /\ arity 3 (gtGroups (spAngle s))) /\
  (Z.of_nat (length (gtGroups (spDihedral s))) = gtN (spDihedral s) /\ arity 4 (gtGroups (spDihedral s))).

Lemma species_ok_wf s : species_ok s -> structure_wf s.
Proof.
  intros (Hl & Hb & Ha & Hd). unfold structure_wf, arity.
  split; [lia|]. split; [done|].
  split; [split; [apply Hb|]|split; (split; [apply Ha || apply Hd|])];
    apply Forall_lookup; intros i gr Hi; (apply Hb in Hi || apply Ha in Hi || apply Hd in Hi); by destruct Hi.
Qed.

(** The third atoms of the angles are looked up among the dihedrals (Species.cpp:422). *)
Definition angles_agree_with_dihedrals (s : species) : Prop :=
  forall b ga, gtGroups (spAngle s) !! b = Some ga ->
    exists gd, gtGroups (spDihedral s) !! b = Some gd /\ sgAtoms gd !! 2%nat = sgAtoms ga !! 2%nat.

Lemma atoms_loop s rest :
  Z.of_nat (length (spTypes s)) = spNAtom s ->
  foldM (fun '(m, ts) i =>
          let '(index, ts) := sread ts in
          let '(ty, ts) := sread ts in
          let? t := zget (spTypes s) i in
          Ok (m && bool_decide (index = i) && bool_decide (ty = t), ts))
        (true, concat (imap (fun i t => [TI (Z.of_nat i); TI t]) (spTypes s)) ++ rest) (seqZ 0 (spNAtom s)) = Ok (true, rest).
Proof.
  intros Hl. rewrite <- Hl.
  apply (foldM_lines (fun i t => [TI (Z.of_nat i); TI t]) _ (fun _ => true)).
  intros l1 t l2 r E. cbn [app sread].
  assert (zget (spTypes s) (Z.of_nat (length l1)) = Ok t) as ->.
  { apply zget_Ok. split; [lia|]. rewrite Nat2Z.id, E, lookup_app_r, Nat.sub_diag by lia. done. }
  cbn [obind]. rewrite !bool_decide_eq_true_2 by done. done.
Qed.

Theorem match_own_text_partial s rest :
  structure_wf s -> angles_agree_with_dihedrals s -> no_label rest ->
  match_structure s (write_structure s ++ rest) = Ok (true, rest).
Proof.
  intros (Hn & Ht & (Hb & Kb) & (Ha & Ka) & (Hd & Kd)) Hagree Hrest.
  unfold match_structure, write_structure. rewrite <- !app_comm_cons. cbn [sread].
  rewrite (bool_decide_eq_true_2 (spNAtom s = spNAtom s)) by done. rewrite <- !app_assoc.
  rewrite atoms_loop by done. cbn [obind].
  rewrite match_section_own; [| done | done | |].
  2: { intros. eapply group_atom_Ok; eauto. }
  2: { intros _. apply w_section_none; [done|]. apply w_section_none; [done|]. by apply smatch_none. }
  cbn [obind].
  rewrite match_section_own; [| done | done | |].
  2: { intros b gr p a Hg Hp. case_decide as E.
       - subst p. destruct (Hagree _ _ Hg) as (gd & Hgd & E). eapply group_atom_Ok; [done|]. by rewrite E.
       - eapply group_atom_Ok; eauto. }
  2: { intros _. apply w_section_none; [done|]. by apply smatch_none. }
  cbn [obind]. apply match_section_own; [done|done| |].
  - intros. eapply group_atom_Ok; eauto.
  - intros _. by apply smatch_none.
Qed.

(** species without angles, and all rings *)
Corollary match_own_text_no_angles s rest :
  structure_wf s -> gtN (spAngle s) = 0 -> no_label rest ->
  match_structure s (write_structure s ++ rest) = Ok (true, rest).
Proof.
  intros Hw H0 Hr. apply match_own_text_partial; [done| |done]. intros b ga Hg. apply lookup_lt_Some in Hg.
  destruct Hw as (_ & _ & _ & (E & _) & _). lia.
Qed.
Corollary match_own_text_ring id cap n ty h rest :
  hr_read id cap n ty = Ok h -> no_label rest ->
  match_structure (hrSp h) (write_structure (hrSp h) ++ rest) = Ok (true, rest).
Proof.
  intros H Hr. destruct (homoring_topology _ _ _ _ _ H) as (Hn & Hok & _ & _ & _ & _ & _ & [La Ha] & [Ld Hd]).
  apply match_own_text_partial; [by apply species_ok_wf| |done].
  intros b ga Hg. destruct (Ha _ _ Hg) as [Ea _]. assert (Hlt := lookup_lt_Some _ _ _ Hg).
  destruct (lookup_lt_is_Some_2 (gtGroups (spDihedral (hrSp h))) b) as [gd Hgd]; [lia|].
  destruct (Hd _ _ Hgd) as [Ed _]. exists gd. split; [done|]. rewrite Ea, Ed. reflexivity.
Qed.

(** A linear molecule with angles has more angles than dihedrals: matchStructure reads speciesDihedrals_
    beyond its end, whatever its own text says. *)
Lemma foldM_reach {A S} (f : S -> A -> outcome S) l s s' x : foldM f s l = Ok s' -> x ∈ l -> exists s1 s2, f s1 x = Ok s2.
Proof.
  revert s. induction l as [|y l IH]; intros s H Hx; [by apply elem_of_nil in Hx|]. cbn [foldM] in H.
  apply obind_Ok in H as (s1 & H1 & H). apply elem_of_cons in Hx as [->|Hx]; eauto.
Qed.
Lemma sreads_length n ts : length (fst (sreads n ts)) = n.
Proof.
  revert ts. induction n as [|n IH]; intros ts; [done|]. cbn. destruct (sread ts) as [z ts']. specialize (IH ts').
  destruct (sreads n ts'). cbn in *. by rewrite IH.
Qed.
Lemma match_section_oob s ts m r :
  gtN (spDihedral s) < gtN (spAngle s) -> Z.of_nat (length (gtGroups (spDihedral s))) = gtN (spDihedral s) ->
  match_section 3 LAngle (gtN (spAngle s))
          (fun p b => if decide (p = 2%nat) then group_atom (gtGroups (spDihedral s)) p b
                      else group_atom (gtGroups (spAngle s)) p b) m (TL LAngle :: ts) <> Ok r.
Proof.
  intros Hlt Hl H. unfold match_section in H. cbn [smatch] in H. rewrite decide_True in H by done.
  destruct (sread ts) as [c ts'] eqn:E.
  apply (foldM_reach _ _ _ _ (gtN (spDihedral s))) in H as ([m1 t1] & [m2 t2] & H); [|apply elem_of_seqZ; lia].
  destruct (sread t1) as [i t3]. destruct (sreads 3 t3) as [l t4] eqn:El. destruct (sread t4) as [z t5].
  apply obind_Ok in H as (m3 & H & _).
  pose proof (sreads_length 3 t3) as Hlen. rewrite El in Hlen. cbn [fst] in Hlen.
  destruct l as [|a [|b [|d [|]]]]; try done.
  apply (foldM_reach _ _ _ _ (2%nat, d)) in H as (m4 & m5 & H).
  2: { cbn. right. right. left. }
  apply obind_Ok in H as (x & H & _). rewrite decide_True in H by done. unfold group_atom in H.
  apply obind_Ok in H as (g & H & _). apply zget_Ok in H as [_ H]. apply lookup_lt_Some in H. lia.
Qed.

Theorem match_own_text_refuted cap n at_ bt o h rest :
  hp_read cap n at_ bt o = Ok h -> asks (ogHasA o) = true ->
  forall r, match_structure (hpSp h) (write_structure (hpSp h) ++ rest) <> Ok r.
Proof.
  intros Hh HA r H. destruct (homopolymer_topology _ _ _ _ _ _ Hh) as (Hok & _ & _ & Hst).
  destruct (species_ok_wf _ Hok) as (Hn & Ht & (Hb & Kb) & (Ha & Ka) & (Hd & Kd)).
  destruct Hst as (En & _ & Eb & _ & (Ea & _) & (Ed & _)). rewrite HA in Ea.
  assert (Hn3 : 3 <= n).
  { unfold hp_read in Hh. apply obind_Ok in Hh as (d & Hd' & _). apply read_ad_Ok in Hd' as (E1 & _ & _ & _ & E5 & _).
    unfold asks in HA. rewrite negb_true_iff, bool_decide_eq_false in HA. rewrite <- E1 in HA. by apply E5. }
  unfold match_structure, write_structure in H. rewrite <- !app_comm_cons in H. cbn [sread] in H.
  rewrite (bool_decide_eq_true_2 (spNAtom (hpSp h) = spNAtom (hpSp h))) in H by done. rewrite <- !app_assoc in H.
  rewrite atoms_loop in H by done. cbn [obind] in H.
  rewrite match_section_own in H; [| done | done | |].
  2: { intros. eapply group_atom_Ok; eauto. }
  2: { intros ?. lia. }
  cbn [obind] in H. apply obind_Ok in H as (r' & H & _). unfold w_section at 1 in H. rewrite decide_True in H by lia.
  cbn [app] in H. apply match_section_oob in H; [done| |done]. destruct (asks (ogHasD o)); lia.
Qed.

(** Different structures can match: bond types and whole sections are not compared. *)
Theorem match_other_text_refuted :
  exists s s', is_valid false s = Ok () /\ is_valid false s' = Ok () /\ write_structure s <> write_structure s' /\ gtGroups (spBond s) <> gtGroups (spBond s') /\ match_structure s (write_structure s') = Ok (true, []).
Proof.
  exists (SP 0 1 2 [0; 0] (GT 1 [SG [0; 1] 0] [[0]; [0]]) (GT 0 [] [[]; []]) (GT 0 [] [[]; []])).
  exists (SP 0 1 2 [0; 0] (GT 1 [SG [0; 1] 5] [[0]; [0]]) (GT 0 [] [[]; []]) (GT 0 [] [[]; []])).
  vm_compute. done.
Qed.
Theorem match_missing_section_refuted :
  exists s s', is_valid false s = Ok () /\ is_valid false s' = Ok () /\ gtN (spBond s) <> gtN (spBond s') /\ match_structure s (write_structure s') = Ok (true, []).
Proof.
  exists (SP 0 1 2 [0; 0] (GT 1 [SG [0; 1] 0] [[0]; [0]]) (GT 0 [] [[]; []]) (GT 0 [] [[]; []])).
  exists (SP 0 1 2 [0; 0] (GT 0 [] [[]; []]) (GT 0 [] [[]; []]) (GT 0 [] [[]; []])).
  vm_compute. done.
Qed.

(** ** readStructure reproduces what writeStructure wrote *)
Lemma read_section_own k lab g rest :
  0 <= gtN g -> Z.of_nat (length (gtGroups g)) = gtN g -> arity k (gtGroups g) ->
  (gtN g = 0 -> smatch lab rest = (false, rest)) ->
  read_section k lab (w_section lab g ++ rest) = Ok (gtN g, gtGroups g, rest).
Proof.
  intros H0 Hl Hk Hr. unfold read_section, w_section. case_decide as Hp.
  - cbn [app smatch]. rewrite decide_True by done. cbn [ssread obind]. rewrite <- Hl at 1. unfold w_lines.
    rewrite (foldM_lines (fun i g => TI (Z.of_nat i) :: map TI (sgAtoms g) ++ [TI (sgType g)]) _ (fun l => l)); [done|].
    intros l1 gr l2 rest' E. cbn [app ssread obind]. rewrite bool_decide_eq_true_2 by done. cbn [check obind].
    assert (Hlk : gtGroups g !! length l1 = Some gr) by (rewrite E, lookup_app_r, Nat.sub_diag by lia; done).
    assert (length (sgAtoms gr) = k) as <- by (unfold arity in Hk; rewrite Forall_lookup in Hk; eauto).
    rewrite <- app_assoc, ssreads_map. cbn [app ssread obind]. by destruct gr.
  - assert (E : gtN g = 0) by lia. cbn [app]. rewrite Hr by done. cbn [obind]. rewrite E.
    change (seqZ 0 0) with (@nil Z). cbn [foldM obind]. destruct (gtGroups g); [done|cbn in Hl; lia].
Qed.

Theorem read_own_text cap n types nb bs na as_ nd ds s rest :
  arity 2 bs -> arity 3 as_ -> arity 4 ds -> no_label rest ->
  sp_build cap n types nb bs na as_ nd ds = Ok s ->
  read_structure cap (write_structure s ++ rest) = Ok (s, rest).
Proof.
  intros H2 H3 H4 Hrest H. assert (Hb := H).
  apply sp_build_Ok in H as (_ & E1 & E2 & Hn & E3 & Hl & (B1 & B2 & B3 & B4) & (A1 & A2 & A3 & A4) & (D1 & D2 & D3 & D4)).
  unfold read_structure, write_structure. rewrite <- !app_comm_cons. cbn [ssread obind].
  rewrite E2, bool_decide_eq_true_2 by done. cbn [check obind]. rewrite <- !app_assoc, E3. rewrite <- Hl at 1.
  rewrite (foldM_lines (fun i t => [TI (Z.of_nat i); TI t]) _ (fun l => l)) by (intros; done). cbn [obind].
  rewrite read_section_own by (rewrite ?B1, ?B2; (done || lia || (intros _; apply w_section_none; [done|]; apply w_section_none; [done|]; by apply smatch_none))).
  cbn [obind].
  rewrite read_section_own by (rewrite ?A1, ?A2; (done || lia || (intros _; apply w_section_none; [done|]; by apply smatch_none))).
  cbn [obind].
  rewrite read_section_own by (rewrite ?D1, ?D2; (done || lia || (intros _; by apply smatch_none))).
  cbn [obind]. rewrite B1, B2, A1, A2, D1, D2, Hb. done.
Qed.

(** ** A general species is accepted exactly when its groups are sensible *)
Theorem species_read_sound cap n types nb bs na as_ nd ds s :
  arity 2 bs -> arity 3 as_ -> arity 4 ds ->
  sp_build cap n types nb bs na as_ nd ds = Ok s -> species_ok s /\ (forall t, t ∈ types -> 0 <= t).
Proof.
  intros H2 H3 H4 H. assert (Hb := H).
  apply sp_build_Ok in H as (_ & E1 & E2 & Hn & E3 & Hl & (B1 & B2 & B3 & B4) & (A1 & A2 & A3 & A4) & (D1 & D2 & D3 & D4)).
  unfold sp_build in Hb. apply obind_Ok in Hb as (ts & Ha & H). apply obind_Ok in H as ([] & _ & H).
  apply obind_Ok in H as (gb & Hb & H). apply obind_Ok in H as (ga & Hg & H). apply obind_Ok in H as (gd & Hd & H).
  apply obind_Ok in H as (gb' & Hb' & H). apply obind_Ok in H as (ga' & Hg' & H). apply obind_Ok in H as (gd' & Hd' & H).
  apply obind_Ok in H as ([] & Hv & [= <-]). cbn [spId spCap spNAtom spTypes spBond spAngle spDihedral] in *.
  assert (Hm : forall k M g g' m l, sp_groups k M n m l = Ok g -> init_ids M n g = Ok g' -> arity k l -> table_made k n g').
  { clear. intros k M g g' m l Hs Hi Hk. apply sp_groups_Ok in Hs as (? & Hm & Hl & EN & EG & EI).
    split; [apply init_ids_fields in Hi as [_ ->]; by rewrite EG|].
    destruct (decide (0 < m)); [left; apply init_ids_fields in Hi as [-> _]; lia|]. right.
    unfold init_ids in Hi. apply obind_Ok in Hi as ([] & _ & Hi). rewrite decide_False in Hi by lia. injection Hi as <-.
    assert (m = 0) by lia. subst m. destruct l; [|cbn in *; lia]. destruct g. cbn in *. by subst. }
  apply is_valid_iff in Hv; [|cbn; intros ->; cbn in *; lia|eapply Hm; eauto|eapply Hm; eauto|eapply Hm; eauto].
  destruct Hv as [? [?|?]]; [done|]. done.
Qed.

(** ** And every sensible general species is accepted *)

(** Groups of [k] different atoms of the molecule, at most [M] of them containing any one atom. *)
Definition groups_sensible (k M : nat) (nAtom : Z) (gs : list sgroup) : Prop :=
  Forall (fun g => length (sgAtoms g) = k /\ NoDup (sgAtoms g) /\ forall a, a ∈ sgAtoms g -> 0 <= a < nAtom) gs /\
  forall a, (length (filter (fun g => a ∈ sgAtoms g) gs) <= M)%nat.

Lemma append_atoms M (b : Z) (atoms : list Z) : forall ids,
  NoDup atoms -> (forall a, a ∈ atoms -> 0 <= a < Z.of_nat (length ids)) ->
  (forall a l, Z.of_nat a ∈ atoms -> ids !! a = Some l -> (length l < M)%nat) ->
  exists ids', foldM (fun ids a => ids_append M ids a b) ids atoms = Ok ids' /\ length ids' = length ids /\
    forall a l, ids !! a = Some l -> ids' !! a = Some (if decide (Z.of_nat a ∈ atoms) then l ++ [b] else l).
Proof.
  induction atoms as [|x atoms IH]; intros ids Hnd Hr Hb.
  { exists ids. split; [done|]. split; [done|]. intros a l Hl. by rewrite decide_False by (by intros ?%elem_of_nil). }
  apply NoDup_cons in Hnd as [Hx Hnd]. cbn [foldM].
  assert (Hx0 : 0 <= x < Z.of_nat (length ids)) by (apply Hr; left).
  destruct (lookup_lt_is_Some_2 ids (Z.to_nat x) ltac:(lia)) as [l Hl].
  assert (Ez : Z.of_nat (Z.to_nat x) = x) by lia.
  assert (E : ids_append M ids x b = Ok (<[Z.to_nat x := l ++ [b]]> ids)).
  { unfold ids_append, zget, zset. rewrite !(decide_True (P := 0 <= x)) by lia. unfold aget. rewrite Hl. cbn [obind].
    assert (length l < M)%nat by (apply (Hb (Z.to_nat x)); [rewrite Ez; left|done]).
    rewrite decide_False by lia. unfold aset. rewrite !decide_True by lia. done. }
  rewrite E. cbn [obind].
  destruct (IH (<[Z.to_nat x := l ++ [b]]> ids) Hnd) as (ids' & E' & Hlen & Hids').
  - intros a Ha. rewrite insert_length. apply Hr. by right.
  - intros a l' Ha Hl'. destruct (decide (Z.to_nat x = a)) as [<-|Hne]; [by rewrite Ez in Ha|].
    rewrite list_lookup_insert_ne in Hl' by done. apply (Hb a); [by right|done].
  - exists ids'. split; [done|]. rewrite insert_length in Hlen. split; [done|]. intros a l' Hl'.
    destruct (decide (Z.to_nat x = a)) as [<-|Hne].
    + rewrite Hl in Hl'. injection Hl' as <-.
      rewrite (Hids' (Z.to_nat x) (l ++ [b])) by (apply list_lookup_insert; lia).
      rewrite Ez. destruct (decide (x ∈ atoms)) as [|_]; [done|]. destruct (decide (x ∈ x :: atoms)) as [_|Hn]; [done|].
      exfalso. apply Hn. left.
    + rewrite (Hids' a l') by (by rewrite list_lookup_insert_ne). f_equal.
      destruct (decide (Z.of_nat a ∈ atoms)) as [Hin|Hin].
      * by rewrite decide_True by (by right).
      * rewrite decide_False; [done|]. intros [?|?]%elem_of_cons; [lia|done].
Qed.

#[global] Instance groups_of_dec (gs : list sgroup) (a i : Z) : Decision (match gs !! Z.to_nat i with Some g => a ∈ sgAtoms g | None => False end).
Proof. destruct (gs !! Z.to_nat i); apply _. Defined.
(** the groups numbered below [b] that contain [a] *)
Definition groups_of (gs : list sgroup) (b : nat) (a : Z) : list Z :=
  filter (fun i => match gs !! Z.to_nat i with Some g => a ∈ sgAtoms g | None => False end) (seqZ 0 (Z.of_nat b)).

Lemma groups_of_S gs b a g : gs !! b = Some g ->
  groups_of gs (S b) a = groups_of gs b a ++ (if decide (a ∈ sgAtoms g) then [Z.of_nat b] else []).
Proof.
  intros Hg. unfold groups_of. replace (Z.of_nat (S b)) with (Z.of_nat b + 1) by lia.
  rewrite seqZ_app by lia. rewrite filter_app. f_equal.
  replace (seqZ (0 + Z.of_nat b) 1) with [Z.of_nat b] by (unfold seqZ; cbn; f_equal; lia).
  rewrite filter_cons, filter_nil. destruct (decide (a ∈ sgAtoms g)) as [Ha|Ha]; destruct (decide _) as [H|H]; try done;
    rewrite Nat2Z.id, Hg in H; done.
Qed.
Lemma groups_of_length gs a : forall b, (b <= length gs)%nat ->
  length (groups_of gs b a) = length (filter (fun g => a ∈ sgAtoms g) (take b gs)).
Proof.
  induction b as [|b IH]; intros Hb; [done|]. destruct (lookup_lt_is_Some_2 gs b ltac:(lia)) as [g Hg].
  rewrite (groups_of_S _ _ _ _ Hg), (take_S_r _ _ _ Hg), filter_app, !app_length, IH by lia. f_equal.
  rewrite filter_cons, filter_nil. by repeat case_decide.
Qed.

Lemma init_ids_total k M nAtom gs : 0 < nAtom -> groups_sensible k M nAtom gs ->
  exists g, init_ids M nAtom (GT (Z.of_nat (length gs)) gs (replicate (Z.to_nat nAtom) [])) = Ok g /\ topology_ok k nAtom g.
Proof.
  intros Hn [HF HM]. unfold init_ids. cbn [gtN gtGroups gtIds]. rewrite (bool_decide_eq_true_2 (0 <= _)) by lia. cbn [check obind].
  destruct (decide (0 < Z.of_nat (length gs))) as [Hp|Hp].
  2:{ eexists. split; [done|]. destruct gs; [|cbn in Hp; lia]. apply (empty_table_ok k nAtom). lia. }
  rewrite bool_decide_eq_true_2 by done. cbn [check obind]. rewrite replicate_length, bool_decide_eq_true_2 by lia. cbn [check obind].
  assert (E0 : forallb (fun l : list Z => match l with [] => true | _ => false end) (replicate (Z.to_nat nAtom) []) = true).
  { apply forallb_forall. intros l Hl%elem_of_list_In. apply elem_of_replicate_inv in Hl. by subst. }
  rewrite E0. cbn [check obind].
  set (body := fun ids b => let? gr := zget gs b in
        let? _ := check (forallb (fun a => bool_decide (0 <= a < nAtom)) (sgAtoms gr)) in
        foldM (fun ids a => ids_append M ids a b) ids (sgAtoms gr)).
  assert (HI : forall b, (b <= length gs)%nat -> exists ids, foldM body (replicate (Z.to_nat nAtom) []) (seqZ 0 (Z.of_nat b)) = Ok ids /\
     length ids = Z.to_nat nAtom /\ forall a, (a < Z.to_nat nAtom)%nat -> ids !! a = Some (groups_of gs b (Z.of_nat a))).
  { induction b as [|b IH]; intros Hb.
    - exists (replicate (Z.to_nat nAtom) []). split; [done|]. rewrite replicate_length. split; [done|].
      intros a Ha. by rewrite lookup_replicate_2 by done.
    - destruct (IH ltac:(lia)) as (ids & Ei & Hl & Hids). destruct (lookup_lt_is_Some_2 gs b ltac:(lia)) as [g Hg].
      pose proof (proj1 (Forall_lookup _ _) HF b g Hg) as (Hk & Hnd & Hr). cbn beta in Hr.
      destruct (append_atoms M (Z.of_nat b) (sgAtoms g) ids Hnd) as (ids' & Ei' & Hl' & Hids').
      + intros a Ha. specialize (Hr a Ha). lia.
      + intros a l Ha Hal. specialize (Hr _ Ha). rewrite Hids in Hal by lia. injection Hal as <-. rewrite groups_of_length by lia.
        specialize (HM (Z.of_nat a)). rewrite <- (take_drop b gs), filter_app, app_length in HM.
        rewrite (drop_S _ _ _ Hg), filter_cons_True in HM by done. cbn in HM. lia.
      + exists ids'. split; [|split; [lia|]].
        * replace (Z.of_nat (S b)) with (Z.of_nat b + 1) by lia. rewrite seqZ_app by lia. rewrite foldM_app, Ei. cbn [obind].
          replace (seqZ (0 + Z.of_nat b) 1) with [Z.of_nat b] by (unfold seqZ; cbn; f_equal; lia). cbn [foldM]. unfold body at 1.
          unfold zget. rewrite decide_True by lia. unfold aget. rewrite Nat2Z.id, Hg. cbn [obind].
          assert (forallb (fun a => bool_decide (0 <= a < nAtom)) (sgAtoms g) = true) as ->.
          { apply forallb_forall. intros a Ha%elem_of_list_In. apply bool_decide_eq_true. by apply Hr. }
          cbn [check obind]. rewrite Ei'. done.
        * intros a Ha. rewrite (Hids' a _ (Hids a Ha)). f_equal. rewrite (groups_of_S _ _ _ _ Hg). by case_decide; rewrite ?app_nil_r. }
  destruct (HI (length gs) ltac:(lia)) as (ids & Ei & Hl & Hids). rewrite Ei. cbn [obind]. eexists. split; [done|].
  split; cbn [gtN gtGroups gtIds].
  - done.
  - lia.
  - intros b g Hg. apply (proj1 (Forall_lookup _ _) HF b g Hg).
  - intros a l Hal. assert (Ha : (a < Z.to_nat nAtom)%nat) by (apply lookup_lt_Some in Hal; lia).
    rewrite Hids in Hal by done. injection Hal as <-. split.
    + apply NoDup_filter, NoDup_seqZ.
    + intros b. unfold groups_of, contains. rewrite elem_of_list_filter, elem_of_seqZ. split.
      * intros [H1 H2]. destruct (gs !! Z.to_nat b) as [g|]; [|done]. exists g. split; [lia|done].
      * intros (g & H1 & H2 & H3). rewrite H2. split; [done|]. apply lookup_lt_Some in H2. lia.
Qed.

(** C39 for a general species: any types, and any bonds, angles and dihedrals of different atoms with no more than 4, 18 and
    72 of them at one atom (Species.h:78, 89, 100), are accepted, kept as given, and give consistent per-atom lists. *)
Theorem species_accepted cap n types bs as_ ds :
  0 < n -> Z.of_nat (length types) = n -> (forall t, t ∈ types -> 0 <= t) ->
  groups_sensible 2 4 n bs -> groups_sensible 3 18 n as_ -> groups_sensible 4 72 n ds ->
  exists s, sp_build cap n types (Z.of_nat (length bs)) bs (Z.of_nat (length as_)) as_ (Z.of_nat (length ds)) ds = Ok s /\
    species_ok s /\ spCap s = cap /\ spNAtom s = n /\ spTypes s = types /\
    gtGroups (spBond s) = bs /\ gtGroups (spAngle s) = as_ /\ gtGroups (spDihedral s) = ds.
Proof.
  intros Hn Hl Ht Hb Ha Hd.
  assert (HG : forall k M gs, sp_groups k M n (Z.of_nat (length gs)) gs = Ok (GT (Z.of_nat (length gs)) gs (replicate (Z.to_nat n) []))).
  { clear - Hn. intros k M gs. unfold sp_groups. rewrite alloc_groups_Ok by lia. cbn [obind gtIds].
    rewrite bool_decide_eq_true_2 by done. cbn [check obind]. case_decide; [done|]. destruct gs; [done|cbn in *; lia]. }
  destruct (init_ids_total 2 4 n bs Hn Hb) as (gb & Eb & Tb). destruct (init_ids_total 3 18 n as_ Hn Ha) as (ga & Ea & Ta).
  destruct (init_ids_total 4 72 n ds Hn Hd) as (gd & Ed & Td).
  assert (Hok : species_ok (SP (-1) cap n types gb ga gd)) by (by split).
  assert (Hv : is_valid false (SP (-1) cap n types gb ga gd) = Ok ()).
  { apply linear_made_valid; [cbn; intros ->; cbn in *; lia|done|by right]. }
  exists (SP (-1) cap n types gb ga gd). split.
  { unfold sp_build. rewrite alloc_atoms_Ok by lia. cbn [obind]. rewrite bool_decide_eq_true_2 by done. cbn [check obind].
    rewrite !HG. cbn [obind]. rewrite Eb, Ea. cbn [obind]. rewrite Ed. cbn [obind]. rewrite Hv. done. }
  split; [done|]. do 3 (split; [done|]). cbn [spBond spAngle spDihedral].
  rewrite (proj2 (init_ids_fields _ _ _ _ Eb)), (proj2 (init_ids_fields _ _ _ _ Ea)), (proj2 (init_ids_fields _ _ _ _ Ed)). done.
Qed.
Example ex_accepted : groups_sensible 2 4 4 [SG [0; 1] 0; SG [1; 2] 1; SG [3; 2] 0] /\ groups_sensible 3 18 4 [SG [0; 1; 2] 0] /\
  groups_sensible 4 72 4 [SG [3; 1; 2; 0] 0].
Proof.
  assert (H : forall k gs, Forall (fun g => length (sgAtoms g) = k /\ NoDup (sgAtoms g) /\ forall a, a ∈ sgAtoms g -> 0 <= a < 4) gs ->
    forall M, (length gs <= M)%nat -> groups_sensible k M 4 gs).
  { intros k gs HF M HM. split; [done|]. intros a. pose proof (filter_length (fun g => a ∈ sgAtoms g) gs). lia. }
  split; [|split]; (apply H; [|cbn; lia]); repeat (apply Forall_cons; split; [|]); try apply Forall_nil; try done; cbn [sgAtoms];
    (split; [done|]); (split; [apply (bool_decide_eq_true_1 (NoDup _)); reflexivity|]); intros a; rewrite !elem_of_cons, elem_of_nil; lia.
Qed.

(** * Examples *)
Example ex_archive : exists h, hp_read 10 5 0 1 (OG (Some 1) 2 (Some 1) 3) = Ok h /\ hp_save h = [AI 10; AI 5; AI 0; AI 1; AI 1; AI 1; AI 2; AI 1; AI 1; AI 3].
Proof. eexists. split; [vm_compute; reflexivity|]. done. Qed.
Example ex_text : exists h, hp_read 10 3 0 1 (OG None 0 None 0) = Ok h /\ write_structure (hpSp h) = [TL LAtom; TI 3; TI 0; TI 0; TI 1; TI 0; TI 2; TI 0; TL LBond; TI 2; TI 0; TI 0; TI 1; TI 1; TI 1; TI 1; TI 2; TI 1] /\ match_structure (hpSp h) (write_structure (hpSp h)) = Ok (true, []).
Proof. eexists. split; [vm_compute; reflexivity|]. split; vm_compute; done. Qed.
(** an angle and a dihedral: the angle's third atom is that of the dihedral, so the text matches *)
Example ex_general : exists s,
  sp_build 5 4 [0; 1; 1; 0] 3 [SG [0; 1] 0; SG [1; 2] 1; SG [3; 2] 0] 1 [SG [0; 1; 2] 0] 1 [SG [3; 1; 2; 0] 0] = Ok s /\ structure_wf s /\ angles_agree_with_dihedrals s.
Proof.
  eexists. split; [vm_compute; reflexivity|]. split.
  - unfold structure_wf, arity. cbn. repeat split; try lia; repeat constructor.
  - intros [|b] ga Hg; [|done]. injection Hg as <-. eexists. split; [done|]. done.
Qed.

Print Assumptions homopolymer_archive.
Print Assumptions diblock_archive.
Print Assumptions point_archive.
Print Assumptions homopolymerSG_archive.
Print Assumptions multiblock_archive_refuted.
Print Assumptions homoring_archive_refuted.
Print Assumptions species_archive.
Print Assumptions match_own_text_partial.
Print Assumptions match_own_text_no_angles.
Print Assumptions match_own_text_ring.
Print Assumptions match_own_text_refuted.
Print Assumptions match_other_text_refuted.
Print Assumptions match_missing_section_refuted.
Print Assumptions read_own_text.
Print Assumptions species_read_sound.
Print Assumptions species_accepted.
