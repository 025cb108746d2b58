(** Layout of molecules, atoms, groups and masks after initialisation (C42, C14). *)
From Verif Require Import Base SpeciesModel SpeciesSpec SpeciesProofs SpeciesBuild SimModel SimSpec SimProofs SimGroups SimInit.

Section Derive.
Context (sps : list species) (Hin : input_ok sps).
Let F := flat 0 sps.

Lemma F_lookup i sp m : sps !! i = Some sp -> m < Z.to_nat (spCap sp) ->
  F !! (before (fun _ => 1%Z) sps i + m) = Some (sp, i, m) /\
  forall per, off per F (before (fun _ => 1%Z) sps i + m) = before per sps i + m * Z.to_nat (per sp).
Proof.
  intros Hi Hm. destruct (elem_of_list_split_length _ _ _ Hi) as (pre & post & Hs & ->).
  unfold F. rewrite Hs, <- !capacity_before. split.
  - by rewrite flat_lookup.
  - intros per. rewrite flat_off by lia. by rewrite <- capacity_before.
Qed.
Lemma F_lookup_inv p x : F !! p = Some x ->
  sps !! x.1.2 = Some (fsp x) /\ x.2 < Z.to_nat (spCap (fsp x)) /\ p = before (fun _ => 1%Z) sps x.1.2 + x.2.
Proof.
  intros H. apply flat_inv in H as (pre & post & Hs & H1 & H2 & H3). cbn [plus] in H1. rewrite H1.
  split; [rewrite Hs; by apply list_lookup_middle|]. split; [done|].
  rewrite H3. f_equal. rewrite Hs. apply capacity_before.
Qed.
Lemma mol_inv mols p ml : mols_are sps (length F) mols -> mols !! p = Some ml ->
  exists x, F !! p = Some x /\ ml = Mol x.2 x.1.2 (Z.to_nat (spNAtom (fsp x))) (off spNAtom F p).
Proof.
  intros [Hl Hm] Hp. apply lookup_lt_Some in Hp as Hlt. rewrite Hl, <- (flat_length 0 sps) in Hlt.
  destruct (lookup_lt_is_Some_2 _ _ Hlt) as [x Hx]. fold F in Hx. exists x. split; [done|].
  apply lookup_lt_Some in Hx as HxF. pose proof (Hm p x Hx HxF) as E. rewrite Hp in E. injection E as ->. done.
Qed.

Lemma derive_molecules mols M atoms res gb ga gd :
  mols_are sps (length F) mols -> atoms_are sps M (length F) atoms ->
  molecules_ok (Sim sps mols atoms res gb ga gd).
Proof.
  intros Hm Ha. pose proof Hm as [Hml Hmm]. pose proof Ha as [Hal Haa].
  assert (Hb : forall per, before per sps (length sps) = capacity per sps).
  { intros per. unfold before. rewrite firstn_all. by rewrite capacity_sum. }
  constructor; cbn [siSpecies siMols siAtoms].
  - by rewrite Hb.
  - by rewrite Hb.
  - intros i sp m Hi Hlt. destruct (F_lookup i sp m Hi Hlt) as [Hf Ho].
    apply lookup_lt_Some in Hf as HfF. fold F in Hmm. rewrite (Hmm _ _ Hf HfF). cbn [fst snd]. unfold fsp. cbn [fst snd].
    by rewrite Ho.
  - intros p ml sp a t Hp Hsp Ht. destruct (mol_inv mols p ml Hm Hp) as (x & Hx & ->). cbn [moSpecies moFirst] in *.
    apply F_lookup_inv in Hx as Hx'. destruct Hx' as (Hx' & _). assert (sp = fsp x) as -> by congruence.
    apply lookup_lt_Some in Hx as HxF.
    exists (Atm p t (M p a)). split; [|done]. by apply (Haa p x a t).
  - intros x at' Hx. apply lookup_lt_Some in Hx as Hlt. rewrite Hal in Hlt. rewrite <- (off_all spNAtom 0 sps) in Hlt.
    fold F in Hlt. destruct (off_block spNAtom F _ x Hlt) as (p & y & Hy & HyF & Hr).
    assert (HyT : length (spTypes (fsp y)) = Z.to_nat (spNAtom (fsp y))).
    { apply (F_types sps Hin). by eapply elem_of_list_lookup_2. }
    destruct (lookup_lt_is_Some_2 (spTypes (fsp y)) (x - off spNAtom F p)) as [t Ht]; [lia|].
    pose proof (Haa p y _ t Hy HyF Ht) as E. fold F in E. replace (off spNAtom F p + (x - off spNAtom F p)) with x in E by lia.
    rewrite Hx in E. injection E as ->. cbn [atMol].
    eexists. split; [by apply (Hmm p y)|]. cbn [moFirst moNAtom]. done.
Qed.
Lemma derive_groups sel mols atoms res gb ga gd gs A at' : mols_are sps (length F) mols ->
  gstate_ok sps sel A (length F) gs at' -> groups_ok (Sim sps mols atoms res gb ga gd) sel gs.
Proof.
  intros Hm ([_ Hgm] & [_ Harr] & _) p ml sp Hp Hsp. cbn [siMols siSpecies] in *.
  destruct (mol_inv mols p ml Hm Hp) as (x & Hx & ->). cbn [moSpecies moId moFirst] in *.
  apply F_lookup_inv in Hx as Hx'. destruct Hx' as (Hx' & Hlt & Ep). assert (sp = fsp x) as -> by congruence.
  apply lookup_lt_Some in Hx as HxF.
  destruct (F_lookup _ _ _ Hx' Hlt) as [_ Ho]. rewrite <- Ep in Ho.
  specialize (Ho (fun s => gtN (sel s))). cbn beta in Ho. fold F in Hgm, Harr. cbn zeta. rewrite <- Ho. split.
  - by apply (Hgm p x).
  - intros b g Hg. by apply (Harr p x b g).
Qed.
End Derive.

Lemma sel_length sps sel (Hin : input_ok sps) :
  (forall sp, species_ok sp -> exists k, topology_ok k (spNAtom sp) (sel sp)) ->
  forall x, x ∈ flat 0 sps -> length (gtGroups (sel (fsp x))) = Z.to_nat (gtN (sel (fsp x))).
Proof.
  intros Hs x Hx. destruct (F_ok sps Hin x Hx) as (_ & Hok & _). destruct (Hs _ Hok) as (k & [H _ _ _]). lia.
Qed.

Lemma init_kind_plain (on : bool) k sel sps mols atoms : input_ok sps -> mols_are sps (length (flat 0 sps)) mols ->
  (forall sp, species_ok sp -> exists k, topology_ok k (spNAtom sp) (sel sp)) ->
  exists gs, init_kind on false k sel sps mols atoms = Ok (gs, atoms) /\
    (on = true -> gstate_ok sps sel (fun _ _ at' => at' = atoms) (length (flat 0 sps)) gs atoms) /\
    (on = false -> forall p f n, gsMol gs !! p = Some (f, n) -> n = 0) /\
    length (gsMol gs) = length mols.
Proof.
  intros Hin Hm Hs. assert (Hml : length (flat 0 sps) = length mols) by (destruct Hm as [-> _]; apply flat_length). destruct on.
  - destruct (init_kind_Ok sps sel false k (sel_length sps sel Hin Hs) mols Hm (fun _ _ at' => at' = atoms)) with (atoms := atoms)
      as (gs & at' & H1 & H2).
    + intros n xx B g at1 _ _ ->. eexists. done.
    + done.
    + done.
    + pose proof H2 as ([Hl _] & _ & ->). exists gs. split; [done|]. split; [done|]. split; [done|]. by rewrite <- Hml.
  - eexists. split; [reflexivity|]. split; [done|]. split; [|apply replicate_length].
    intros _ p f n H. cbn in H. apply lookup_replicate in H as [[= <- <-] _]. done.
Qed.

(** For all species a simulation can be made of, initialisation completes and gives every molecule its own block of atoms
    and of groups; with MaskBonded two atoms mask each other if and only if a bond joins them. *)
Theorem init_layout nB nA nD bonded sps :
  input_ok sps -> (0 <= nB)%Z -> (0 <= nA)%Z -> (0 <= nD)%Z ->
  exists s, init_sim nB nA nD bonded sps = Ok s /\ siSpecies s = sps /\ molecules_ok s /\
    ((0 < nB)%Z -> groups_ok s spBond (siBonds s)) /\
    ((0 < nA)%Z -> groups_ok s spAngle (siAngles s)) /\
    ((0 < nD)%Z -> groups_ok s spDihedral (siDihedrals s)) /\
    masks_ok s bonded /\
    siRes s = map (fun i => seq (before (fun _ => 1%Z) sps i) (Z.to_nat (default 0%Z (spCap <$> sps !! i)))) (seq 0 (length sps)) /\
    (forall gs, gs ∈ [siBonds s; siAngles s; siDihedrals s] -> length (gsMol gs) = length (siMols s)) /\
    (forall n gs, (n, gs) ∈ [(nB, siBonds s); (nA, siAngles s); (nD, siDihedrals s)] -> (n <= 0)%Z ->
       forall p f c, gsMol gs !! p = Some (f, c) -> c = 0).
Proof.
  intros Hin HB HA HD. pose proof Hin as [Hne Hsp]. unfold init_sim.
  rewrite (bool_decide_eq_true_2 (0 < length sps)) by (destruct sps; [done|cbn; lia]). cbn [check obind].
  rewrite !bool_decide_eq_true_2 by done. cbn [andb check obind].
  replace (forM _ _) with (@Ok () ()).
  2:{ symmetry. apply forM_Ok. intros [sp i] Hx. apply elem_of_list_lookup in Hx as [j Hj].
      apply lookup_zip_with_Some in Hj as (sp' & i' & [= <- <-] & H1 & H2). apply lookup_seq in H2 as [-> _]. cbn [plus].
      destruct (Hsp j sp H1) as (E & Hc & _). rewrite !bool_decide_eq_true_2 by done. done. }
  cbn [obind].
  destruct (all_molecules_Ok sps (F_types sps Hin) [] sps
     (replicate (capacity (fun _ => 1%Z) sps) mol0, replicate (capacity spNAtom sps) atm0)) as ([mols atoms] & H1 & Hm & Ha & _).
  { done. }
  { split; [|split]; cbn [fst snd capacity].
    - split; [by rewrite replicate_length|]. intros p x _ Hp. lia.
    - split; [by rewrite replicate_length|]. intros p x a t _ Hp. lia.
    - intros y at' _ H. apply lookup_replicate in H as [-> _]. done. }
  cbn [length capacity fst snd] in *. rewrite H1. cbn [obind].
  rewrite <- (flat_length 0 sps) in Hm, Ha.
  assert (HsB : forall sp, species_ok sp -> exists k, topology_ok k (spNAtom sp) (spBond sp)) by (intros sp (_ & ? & _); eauto).
  assert (HsA : forall sp, species_ok sp -> exists k, topology_ok k (spNAtom sp) (spAngle sp)) by (intros sp (_ & _ & ? & _); eauto).
  assert (HsD : forall sp, species_ok sp -> exists k, topology_ok k (spNAtom sp) (spDihedral sp)) by (intros sp (_ & _ & _ & ?); eauto).
  assert (Hml : length (flat 0 sps) = length mols) by (destruct Hm as [-> _]; apply flat_length).
  (* bonds, with or without masks *)
  assert (HBonds : exists gs atoms' M, init_kind (bool_decide (0 < nB)%Z) bonded 2 spBond sps mols atoms = Ok (gs, atoms') /\
     ((0 < nB)%Z -> exists A, gstate_ok sps spBond A (length (flat 0 sps)) gs atoms') /\
     ((nB <= 0)%Z -> forall p f n, gsMol gs !! p = Some (f, n) -> n = 0) /\ length (gsMol gs) = length mols /\
     atoms_are sps M (length (flat 0 sps)) atoms' /\
     (forall p a, M p a = if bonded && bool_decide (0 < nB)%Z then msk sps (bonds_of sps) p a else [])).
  { destruct (decide (bonded = true /\ (0 < nB)%Z)) as [[-> HB']|Hno].
    - rewrite bool_decide_eq_true_2 by done.
      destruct (init_kind_Ok sps spBond true 2 (sel_length sps spBond Hin HsB) mols Hm
                  (fun n B at' => atoms_are sps (msk sps (stage sps n B)) (length (flat 0 sps)) at')) with (atoms := atoms)
        as (gs & at' & E1 & E2).
      + intros n xx B g at1 Hn Hg Hat. destruct (mask_bond_Ok sps Hin n B xx g at1 Hn Hg Hat) as (a0 & a1 & at2 & -> & E & Hat').
        exists at2. done.
      + intros n xx at1 Hn Hat. eapply (atoms_are_ext sps Hin); [|exact Hat]. intros p a x Hp _. unfold msk. do 2 f_equal.
        unfold stage. destruct (decide (p < n)); [by rewrite decide_True by lia|].
        destruct (decide (p = n)) as [->|].
        * rewrite decide_True by lia. unfold bonds_of. rewrite Hn. rewrite take_ge by done. done.
        * rewrite decide_False by lia. destruct (decide (p = S n)); [|done]. by rewrite take_0.
      + eapply (atoms_are_ext sps Hin); [|exact Ha]. intros p a x Hp _. unfold msk, stage.
        rewrite decide_False by lia. destruct (decide (p = 0)); [|done]. by rewrite take_0.
      + exists gs, at', (fun p a => msk sps (stage sps (length (flat 0 sps)) 0) p a). split; [done|]. split; [eauto|]. split; [lia|].
        pose proof E2 as ([E2l _] & _ & E3). split; [by rewrite <- Hml|].
        split; [exact E3|]. intros p a. rewrite andb_true_l. unfold msk. do 2 f_equal.
        unfold stage. destruct (decide (p < length (flat 0 sps))); [done|]. unfold bonds_of.
        rewrite (lookup_ge_None_2 (flat 0 sps) p) by lia. by destruct (decide (p = _)).
    - destruct (decide (bonded = true)) as [->|Hb].
      + rewrite bool_decide_eq_false_2 by naive_solver.
        eexists _, atoms, (fun _ _ => []). split; [reflexivity|]. split; [intros; naive_solver|].
        split; [|split; [apply replicate_length|split; [done|done]]]. intros _ p f n H. cbn in H. apply lookup_replicate in H as [[= <- <-] _]. done.
      + destruct bonded; [done|].
        destruct (init_kind_plain (bool_decide (0 < nB)%Z) 2 spBond sps mols atoms Hin Hm HsB) as (gs & E1 & E2 & E3 & E4).
        exists gs, atoms, (fun _ _ => []). split; [done|]. split.
        * intros HB'. rewrite bool_decide_eq_true_2 in E2 by done. eauto.
        * split; [|split; [done|split; done]]. intros HB'. apply E3. apply bool_decide_eq_false_2. lia. }
  destruct HBonds as (gb & atoms' & M & E1 & E2 & E3 & Elb & HaM & HM). rewrite E1. cbn [obind].
  destruct (init_kind_plain (bool_decide (0 < nA)%Z) 3 spAngle sps mols atoms' Hin Hm HsA) as (ga & F1 & F2 & F3 & F4).
  rewrite F1. cbn [obind].
  destruct (init_kind_plain (bool_decide (0 < nD)%Z) 4 spDihedral sps mols atoms' Hin Hm HsD) as (gd & G1 & G2 & G3 & G4).
  rewrite G1. cbn [obind].
  eexists. split; [reflexivity|]. split; [done|]. split; [by eapply derive_molecules|].
  split; [|split; [|split; [|split; [|split; [|split]]]]]; cbn [siBonds siAngles siDihedrals siMols].
  - intros HB'. destruct (E2 HB') as (A & EA). by eapply derive_groups.
  - intros HA'. specialize (F2 (bool_decide_eq_true_2 _ HA')). by eapply derive_groups.
  - intros HD'. specialize (G2 (bool_decide_eq_true_2 _ HD')). by eapply derive_groups.
  - intros x at' Hx. cbn [siAtoms] in Hx. set (F := flat 0 sps) in *.
    pose proof HaM as [Hal Haa]. fold F in Haa.
    apply lookup_lt_Some in Hx as Hlt. rewrite Hal in Hlt. rewrite <- (off_all spNAtom 0 sps) in Hlt. fold F in Hlt.
    destruct (off_block spNAtom F _ x Hlt) as (p & y & Hy & HyF & Hr).
    assert (HyT : length (spTypes (fsp y)) = Z.to_nat (spNAtom (fsp y))).
    { apply (F_types sps Hin). by eapply elem_of_list_lookup_2. }
    set (a := x - off spNAtom F p) in *.
    destruct (lookup_lt_is_Some_2 (spTypes (fsp y)) a) as [t Ht]; [lia|].
    pose proof (Haa p y _ t Hy HyF Ht) as E. replace (off spNAtom F p + a) with x in E by lia.
    rewrite Hx in E. injection E as ->. cbn [atMask]. rewrite HM.
    destruct bonded; cbn [andb].
    2:{ split; [constructor|]. intros z. split; [by intros ?%elem_of_nil|]. by intros [? _]. }
    destruct (decide (0 < nB)%Z) as [HB'|HB'].
    2:{ rewrite bool_decide_eq_false_2 by done. split; [constructor|]. intros z. split; [by intros ?%elem_of_nil|].
        intros (_ & q & f & n & b & g & Hq & Hb & _). cbn [siBonds] in Hq. rewrite (E3 ltac:(lia) _ _ _ Hq) in Hb. lia. }
    rewrite bool_decide_eq_true_2 by done. destruct (E2 HB') as (A & [_ Hgm] & [_ Harr] & _). fold F in Hgm, Harr.
    assert (Hbo : bonds_of sps p = gtGroups (spBond (fsp y))) by (unfold bonds_of; fold F; by rewrite Hy).
    assert (Hnn : forall z, z ∈ partners (bonds_of sps p) (Z.of_nat a) -> exists w, z = Z.of_nat w).
    { intros z (g & Hg & Hp)%elem_partners. rewrite Hbo in Hg. apply elem_of_list_lookup in Hg as [b Hg].
      destruct (bond_atoms sps Hin p y b g Hy Hg) as (u & v & Eu & _).
      apply partner_Some in Hp as [Hp|Hp]; rewrite Eu in Hp; naive_solver. }
    split.
    + unfold msk. apply (NoDup_fmap_2_strong (fun z => off spNAtom (flat 0 sps) p + Z.to_nat z)).
      * intros z1 z2 Hz1 Hz2 Ez. destruct (Hnn z1 Hz1) as [w1 ->]. destruct (Hnn z2 Hz2) as [w2 ->]. lia.
      * rewrite Hbo. by apply (partners_NoDup sps Hin p y).
    + intros z. unfold msk. split.
      * intros (w & Ez & Hw)%elem_of_list_fmap. split; [done|].
        destruct (Hnn w Hw) as [w' ->]. apply elem_partners in Hw as (g & Hg & Hp). rewrite Hbo in Hg.
        apply elem_of_list_lookup in Hg as [b Hg].
        pose proof (Harr p y b g Hy HyF Hg) as Hag.
        exists p, (off (fun s => gtN (spBond s)) F p), (Z.to_nat (gtN (spBond (fsp y)))), b, (Grp (map (fun a => (Z.of_nat (off spNAtom F p) + a)%Z) (sgAtoms g)) (sgType g)).
        cbn [siBonds]. split; [by apply (Hgm p y)|]. split.
        { apply lookup_lt_Some in Hg. rewrite (sel_length sps spBond Hin HsB) in Hg; [done|]. by eapply elem_of_list_lookup_2. }
        split; [done|]. cbn [grAtoms]. fold F in Ez. rewrite Nat2Z.id in Ez.
        apply partner_Some in Hp as [Hp|Hp]; rewrite Hp; cbn [map]; [left|right]; f_equal; [|f_equal| |f_equal]; lia.
      * intros (_ & q & f & n & b & g & Hq & Hb & Hg & Hends). cbn [siBonds] in Hq, Hg.
        assert (Hqx : exists xq, F !! q = Some xq).
        { apply lookup_lt_is_Some. destruct (E2 HB') as (A' & [Hgl _] & _). fold F in Hgl. rewrite <- Hgl. by eapply lookup_lt_Some. }
        destruct Hqx as [xq Hxq]. apply lookup_lt_Some in Hxq as HxqF.
        rewrite (Hgm q xq Hxq HxqF) in Hq. injection Hq as <- <-.
        destruct (lookup_lt_is_Some_2 (gtGroups (spBond (fsp xq))) b) as [g0 Hg0].
        { rewrite (sel_length sps spBond Hin HsB); [done|]. by eapply elem_of_list_lookup_2. }
        rewrite (Harr q xq b g0 Hxq HxqF Hg0) in Hg. injection Hg as <-. cbn [grAtoms] in Hends.
        destruct (bond_atoms sps Hin q xq b g0 Hxq Hg0) as (u & v & Eu & Huv & Hu & Hv). rewrite Eu in Hends. cbn [map] in Hends.
        assert (Hq : (x = off spNAtom F q + u /\ z = off spNAtom F q + v) \/ (x = off spNAtom F q + v /\ z = off spNAtom F q + u)).
        { destruct Hends as [He|He]; injection He as He1 He2; [left|right]; lia. }
        assert (Hpu : partner (Z.of_nat u) g0 = Some (Z.of_nat v)) by (unfold partner; rewrite Eu; by rewrite decide_True).
        assert (Hpv : partner (Z.of_nat v) g0 = Some (Z.of_nat u)).
        { unfold partner; rewrite Eu. rewrite decide_False by lia. by rewrite decide_True. }
        assert (Hfin : forall c d, partner (Z.of_nat c) g0 = Some (Z.of_nat d) -> c < Z.to_nat (spNAtom (fsp xq)) ->
           x = off spNAtom F q + c -> z = off spNAtom F q + d ->
           z ∈ map (fun z0 => off spNAtom (flat 0 sps) p + Z.to_nat z0) (partners (bonds_of sps p) (Z.of_nat a))).
        { intros c d Hcd Hc Ex Ez'. destruct (off_inj spNAtom F q p xq y c a) as [<- <-]; [done|done|done|lia|lia|].
          assert (y = xq) as -> by congruence.
          apply elem_of_list_fmap. exists (Z.of_nat d). split; [fold F; lia|]. apply elem_partners. exists g0. split; [|done].
          rewrite Hbo. by eapply elem_of_list_lookup_2. }
        destruct Hq as [[? ?]|[? ?]]; [by apply (Hfin u v)|by apply (Hfin v u)].
  - cbn [siRes]. clear. assert (H : forall pre post, map (fun '(sp, p) => init_reservoir p (Z.to_nat (spCap sp)))
        (zip post (first_ids (fun _ => 1%Z) (capacity (fun _ => 1%Z) pre) post))
      = map (fun i => seq (before (fun _ => 1%Z) (pre ++ post) i) (Z.to_nat (default 0%Z (spCap <$> (pre ++ post) !! i)))) (seq (length pre) (length post))).
    { intros pre post. revert pre. induction post as [|sp post IH]; intros pre; [done|].
      cbn [first_ids zip zip_with map length seq]. f_equal.
      - unfold init_reservoir. rewrite (capacity_before _ pre (sp :: post)). rewrite list_lookup_middle by done. done.
      - specialize (IH (pre ++ [sp])). rewrite <- app_assoc in IH. cbn [app] in IH.
        rewrite app_length in IH. cbn [length] in IH. rewrite Nat.add_1_r in IH. rewrite <- IH.
        rewrite !capacity_sum, sum_list_with_app. cbn [sum_list_with]. rewrite Nat.add_0_r. done. }
    apply (H [] sps).
  - intros gs Hgs. apply elem_of_cons in Hgs as [->|Hgs]; [done|]. apply elem_of_cons in Hgs as [->|Hgs]; [done|].
    by apply elem_of_list_singleton in Hgs as ->.
  - intros n gs Hgs Hn. apply elem_of_cons in Hgs as [[= -> ->]|Hgs]; [by apply E3|].
    apply elem_of_cons in Hgs as [[= -> ->]|Hgs]; [apply F3, bool_decide_eq_false_2; lia|].
    apply elem_of_list_singleton in Hgs as [= -> ->]. apply G3, bool_decide_eq_false_2; lia.
Qed.

(** Mask::append keeps a set of at most 4 distinct atoms. *)
Theorem mask_append_set m a m' : NoDup m -> mask_append m a = Ok m' -> NoDup m' /\ length m' <= 4 /\ forall b, b ∈ m' <-> b = a \/ b ∈ m.
Proof.
  intros Hnd H. unfold mask_append in H. apply obind_Ok in H as ([] & H1 & H). apply obind_Ok in H as ([] & H2 & H).
  injection H as <-. unfold check in H1, H2. destruct (bool_decide (length m < 4)) eqn:E1; [|done]. apply bool_decide_eq_true in E1.
  destruct (bool_decide (a ∈ m)) eqn:E2; [done|]. apply bool_decide_eq_false in E2.
  split; [|split].
  - apply NoDup_app. split; [done|]. split; [|apply NoDup_singleton]. intros x Hx ->%elem_of_list_singleton. done.
  - rewrite app_length. cbn. lia.
  - intros b. rewrite elem_of_app, elem_of_list_singleton. naive_solver.
Qed.
(** It throws exactly when the mask is full or holds the atom already. *)
Theorem mask_append_throws m a : mask_append m a = Throw <-> 4 <= length m \/ a ∈ m.
Proof.
  unfold mask_append. destruct (decide (length m < 4)) as [H|H].
  - rewrite bool_decide_eq_true_2 by done. cbn [check obind]. destruct (decide (a ∈ m)) as [H'|H'].
    + rewrite bool_decide_eq_true_2 by done. cbn. split; [by right|done].
    + rewrite bool_decide_eq_false_2 by done. cbn. split; [done|]. intros [?|?]; [lia|done].
  - rewrite bool_decide_eq_false_2 by done. cbn. split; [intros _; left; lia|done].
Qed.
Theorem isMasked_exact m a : is_masked m a = true <-> a ∈ m.
Proof. apply bool_decide_eq_true. Qed.

(** ** Examples *)
Definition ex_chain : species :=
  SP 0 2 3 [0; 1; 0]%Z (GT 2 [SG [0; 1]%Z 0; SG [1; 2]%Z 0] [[0]; [0; 1]; [1]]%Z) (GT 1 [SG [0; 1; 2]%Z 4] [[0]; [0]; [0]]%Z) (GT 0 [] [[]; []; []]).
Definition ex_ion : species := SP 1 3 1 [2]%Z (GT 0 [] [[]]) (GT 0 [] [[]]) (GT 0 [] [[]]).
Lemma ex_input : input_ok [ex_chain; ex_ion].
Proof.
  split; [done|]. intros [|[|i]] sp H; [| |done]; injection H as <-; (split; [done|]); (split; [done|]); (split; [done|]); split.
  - apply (is_valid_iff false); [done| | | |done];
      (split; [repeat constructor|(by left) || (by right)]).
  - split.
    + intros [|[|b1]] [|[|b2]] g1 g2 H1 H2 He; cbn in *; try done; injection H1 as <-; injection H2 as <-; exfalso.
      * assert (0 ∈ [1; 2])%Z as X by (apply He; left). by repeat (apply elem_of_cons in X as [X|X]; [done|]); apply elem_of_nil in X.
      * assert (2 ∈ [0; 1])%Z as X by (apply He; right; left). by repeat (apply elem_of_cons in X as [X|X]; [done|]); apply elem_of_nil in X.
    + intros l Hl. cbn in Hl. repeat (apply elem_of_cons in Hl as [->|Hl]; [cbn; lia|]). by apply elem_of_nil in Hl.
  - apply (is_valid_iff false); [done| | | |done];
      (split; [repeat constructor|(by left) || (by right)]).
  - split; [by intros [|b1] ? ? ? ?|]. intros l Hl. cbn in Hl. repeat (apply elem_of_cons in Hl as [->|Hl]; [cbn; lia|]). by apply elem_of_nil in Hl.
Qed.
Example ex_init : exists s, init_sim 1 1 0 true [ex_chain; ex_ion] = Ok s /\
  map atMask (siAtoms s) = [[1]; [0; 2]; [1]; [4]; [3; 5]; [4]; []; []; []] /\
  map atMol (siAtoms s) = [0; 0; 0; 1; 1; 1; 2; 3; 4] /\
  gsArr (siAngles s) = [Grp [0; 1; 2]%Z 4; Grp [3; 4; 5]%Z 4] /\ siRes s = [[0; 1]; [2; 3; 4]].
Proof. eexists. split; [vm_compute; reflexivity|]. done. Qed.
(** Two bonds between the same atoms are refused with MaskBonded only. *)
Definition ex_double : species :=
  SP 0 1 2 [0; 0]%Z (GT 2 [SG [0; 1]%Z 0; SG [1; 0]%Z 0] [[0; 1]; [0; 1]]%Z) (GT 0 [] [[]; []]) (GT 0 [] [[]; []]).
Example ex_double_throws : is_valid false ex_double = Ok () /\ init_sim 1 0 0 true [ex_double] = Throw /\
  is_ok (init_sim 1 0 0 false [ex_double]).
Proof. vm_compute. split; [done|]. split; [done|]. eauto. Qed.

Print Assumptions init_layout.
Print Assumptions mask_append_set.
Print Assumptions mask_append_throws.
Print Assumptions isMasked_exact.
