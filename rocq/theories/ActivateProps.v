(** Activity of atoms and groups stays consistent in every history (C15). *)
From Verif Require Import Base SpeciesModel SpeciesSpec SpeciesProofs SimModel SimSpec SimProofs SimGroups SimInit SimProps ActivateModel.

(** Atom [z] exists and is inactive. *)
Definition inactive (fl : list bool) (z : Z) : Prop := (0 <= z)%Z /\ fl !! Z.to_nat z = Some false.
Global Instance inactive_dec fl z : Decision (inactive fl z).
Proof. unfold inactive. apply _. Defined.
(** The number of atoms of a group that are inactive. *)
Definition n_inactive (fl : list bool) (g : grp) : nat := length (filter (inactive fl) (grAtoms g)).
(** For group [b] of molecule [p] the stored count is the number of its inactive atoms, and isActive means that all its atoms
    are active. *)
Definition counts_ok (gs : groups) (fl : list bool) (cnt : list Z) : Prop :=
  forall p f n b g, gsMol gs !! p = Some (f, n) -> b < n -> gsArr gs !! (f + b) = Some g ->
    cnt !! (f + b) = Some (Z.of_nat (n_inactive fl g)) /\
    (group_active cnt (f + b) = Ok true <-> forall a, a ∈ grAtoms g -> (0 <= a)%Z /\ fl !! Z.to_nat a = Some true).
Definition consistent (s : sim) (st : act) : Prop :=
  length (acAtoms st) = length (siAtoms s) /\
  counts_ok (siBonds s) (acAtoms st) (acB st) /\ counts_ok (siAngles s) (acAtoms st) (acA st) /\
  counts_ok (siDihedrals s) (acAtoms st) (acD st).

(** ** Lists *)
Lemma filter_insert_false fl x (l : list Z) : NoDup l -> fl !! x = Some true ->
  length (filter (inactive (<[x:=false]> fl)) l) = length (filter (inactive fl) l) + (if decide (Z.of_nat x ∈ l) then 1 else 0).
Proof.
  intros Hnd Hx. apply lookup_lt_Some in Hx as Hlt. induction Hnd as [|z l Hz Hnd IH]; [done|].
  destruct (decide (z = Z.of_nat x)) as [->|Hne].
  - rewrite (decide_True (P := Z.of_nat x ∈ _)) by left. rewrite (decide_False (P := Z.of_nat x ∈ l)) in IH by done.
    rewrite filter_cons_True; [|split; [lia|]; rewrite Nat2Z.id; by rewrite list_lookup_insert].
    rewrite filter_cons_False; [|intros [_ H]; rewrite Nat2Z.id in H; congruence].
    cbn [length]. lia.
  - assert (Hi : inactive (<[x:=false]> fl) z <-> inactive fl z).
    { unfold inactive. split; intros [H1 H2]; split; try done; [rewrite list_lookup_insert_ne in H2 by lia|rewrite list_lookup_insert_ne by lia]; done. }
    replace (if decide (Z.of_nat x ∈ z :: l) then 1 else 0) with (if decide (Z.of_nat x ∈ l) then 1 else 0).
    2:{ destruct (decide (Z.of_nat x ∈ l)), (decide (Z.of_nat x ∈ z :: l)) as [H|H]; try done.
        - exfalso. apply H. by right.
        - apply elem_of_cons in H as [?|?]; [congruence|done]. }
    destruct (decide (inactive fl z)) as [H|H].
    + rewrite !filter_cons_True by naive_solver. cbn [length]. lia.
    + rewrite !filter_cons_False by naive_solver. lia.
Qed.
Lemma filter_flip to fl x (l : list Z) : NoDup l -> fl !! x = Some (negb to) ->
  Z.of_nat (length (filter (inactive (<[x:=to]> fl)) l)) =
  (Z.of_nat (length (filter (inactive fl) l)) + (if decide (Z.of_nat x ∈ l) then if to then -1 else 1 else 0))%Z.
Proof.
  intros Hnd Hx. apply lookup_lt_Some in Hx as Hlt. destruct to.
  - pose proof (filter_insert_false (<[x:=true]> fl) x l Hnd) as H. rewrite list_lookup_insert in H by done.
    specialize (H eq_refl). rewrite list_insert_insert in H. rewrite (list_insert_id fl) in H by done. rewrite H.
    destruct (decide _); lia.
  - rewrite filter_insert_false by done. destruct (decide _); lia.
Qed.
Lemma filter_same fl fl' (l : list Z) : (forall z, z ∈ l -> fl' !! Z.to_nat z = fl !! Z.to_nat z) ->
  filter (inactive fl') l = filter (inactive fl) l.
Proof.
  induction l as [|z l IH]; intros H; [done|].
  assert (inactive fl' z <-> inactive fl z) by (unfold inactive; rewrite (H z) by left; done).
  specialize (IH (fun z' Hz' => H z' (elem_of_list_further _ _ _ Hz'))).
  destruct (decide (inactive fl z)); [rewrite !filter_cons_True by naive_solver; by rewrite IH|rewrite !filter_cons_False by naive_solver; done].
Qed.

Lemma bump_fold (f d : Z) ids (cnt : list Z) : (0 <= f)%Z -> NoDup ids ->
  (forall id, id ∈ ids -> (0 <= id /\ f + id < Z.of_nat (length cnt))%Z) ->
  exists cnt', foldM (fun cnt id => let? c := zget cnt (f + id)%Z in zset cnt (f + id)%Z (c + d)%Z) cnt ids = Ok cnt' /\
    length cnt' = length cnt /\
    forall i, cnt' !! i = if decide ((Z.of_nat i - f)%Z ∈ ids) then (fun c => c + d)%Z <$> cnt !! i else cnt !! i.
Proof.
  intros Hf Hnd. revert cnt. induction Hnd as [|id ids Hid Hnd IH]; intros cnt Hr.
  - exists cnt. split; [done|]. split; [done|]. intros i. rewrite decide_False by (by intros ?%elem_of_nil). done.
  - destruct (Hr id) as [H0 H1]; [left|]. cbn [foldM].
    destruct (lookup_lt_is_Some_2 cnt (Z.to_nat (f + id))) as [c Hc]; [lia|].
    assert (Ez : (let? c := zget cnt (f + id)%Z in zset cnt (f + id)%Z (c + d)%Z) = Ok (<[Z.to_nat (f + id) := (c + d)%Z]> cnt)).
    { unfold zget. rewrite decide_True by lia. rewrite (aget_Ok' _ _ _ Hc). cbn [obind]. unfold zset. rewrite decide_True by lia. apply aset_Ok'. lia. }
    rewrite Ez. cbn [obind].
    destruct (IH (<[Z.to_nat (f + id) := (c + d)%Z]> cnt)) as (cnt' & E & Hl & Hlk).
    { intros j Hj. rewrite insert_length. apply Hr. by right. }
    exists cnt'. split; [exact E|]. rewrite insert_length in Hl. split; [done|]. intros i. rewrite Hlk.
    destruct (decide (i = Z.to_nat (f + id))) as [->|Hi].
    + replace (Z.of_nat (Z.to_nat (f + id)) - f)%Z with id by lia.
      rewrite decide_False by done. rewrite (decide_True (P := id ∈ _)) by left. rewrite list_lookup_insert by lia. by rewrite Hc.
    + rewrite list_lookup_insert_ne by done.
      destruct (decide ((Z.of_nat i - f)%Z ∈ ids)) as [Hin|Hin].
      * rewrite decide_True by (by right). done.
      * rewrite decide_False; [done|]. intros [?|?]%elem_of_cons; [lia|done].
Qed.
Lemma fill_Ok {A} (l : list A) f n v : f + n <= length l \/ n = 0 ->
  exists l', fill l f n v = Ok l' /\ length l' = length l /\
    forall i, l' !! i = if decide (f <= i < f + n) then Some v else l !! i.
Proof.
  intros H. unfold fill.
  destruct (foldM_total (fun l i => aset l (f + i) v)
     (fun j l' => length l' = length l /\ forall i, l' !! i = if decide (f <= i < f + j) then Some v else l !! i) (seq 0 n) l) as (l' & E & H').
  - split; [done|]. intros i. by rewrite decide_False by lia.
  - intros j l1 x Hx [Hl Hlk]. apply lookup_seq in Hx as [-> Hj]. cbn [plus]. rewrite aset_Ok' by lia. eexists. split; [done|].
    rewrite insert_length. split; [done|]. intros i. destruct (decide (i = f + j)) as [->|].
    + rewrite list_lookup_insert by lia. by rewrite decide_True by lia.
    + rewrite list_lookup_insert_ne by done. rewrite Hlk. destruct (decide (f <= i < f + j)); [by rewrite decide_True by lia|by rewrite decide_False by lia].
  - rewrite seq_length in H'. eauto.
Qed.

(** ** One kind of group *)
Section Act.
Context (s : sim).
Let sps := siSpecies s.
Let F := flat 0 sps.
Context (Hin : input_ok sps) (Hmok : molecules_ok s).

Lemma mol_at p ml : siMols s !! p = Some ml ->
  exists x, F !! p = Some x /\ ml = Mol x.2 x.1.2 (Z.to_nat (spNAtom (fsp x))) (off spNAtom F p) /\ sps !! x.1.2 = Some (fsp x).
Proof.
  intros Hp. apply lookup_lt_Some in Hp as Hlt. rewrite (mok_count _ Hmok) in Hlt.
  assert (Hb : before (fun _ => 1%Z) sps (length sps) = length F).
  { unfold before, F. rewrite firstn_all, flat_length. by rewrite capacity_sum. }
  unfold sps in Hb. rewrite Hb in Hlt. destruct (lookup_lt_is_Some_2 _ _ Hlt) as [x Hx].
  exists x. split; [done|]. destruct (F_lookup_inv sps _ _ Hx) as (H1 & H2 & H3).
  pose proof (mok_mol _ Hmok _ _ _ H1 H2) as E. fold sps in E. rewrite <- H3, Hp in E. injection E as ->.
  destruct (F_lookup sps _ _ _ H1 H2) as [_ Ho]. rewrite <- H3 in Ho. fold F in Ho. rewrite Ho. done.
Qed.

(** Groups exist, or the species have none of them. *)
Definition kind_ok (sel : species -> gtab) (gs : groups) : Prop :=
  groups_ok s sel gs \/
  ((forall i sp, sps !! i = Some sp -> gtN (sel sp) = 0%Z) /\ length (gsMol gs) = length (siMols s) /\
   forall p f n, gsMol gs !! p = Some (f, n) -> n = 0).

Section Kind.
Context (sel : species -> gtab) (gs : groups) (k : nat).
Context (Hsel : forall sp, species_ok sp -> topology_ok k (spNAtom sp) (sel sp)).
Context (Hk : kind_ok sel gs) (Hlen : length (gsMol gs) = length (siMols s)).

Lemma topo x : x ∈ F -> topology_ok k (spNAtom (fsp x)) (sel (fsp x)).
Proof. intros Hx. apply Hsel. by destruct (F_ok sps Hin x Hx) as (_ & ? & _). Qed.

(** Group [b] of molecule [p]. *)
Lemma group_at p f n b g : gsMol gs !! p = Some (f, n) -> b < n -> gsArr gs !! (f + b) = Some g ->
  exists x sg, F !! p = Some x /\ f = off (fun s => gtN (sel s)) F p /\ n = Z.to_nat (gtN (sel (fsp x))) /\
    gtGroups (sel (fsp x)) !! b = Some sg /\ grAtoms g = map (fun a => (Z.of_nat (off spNAtom F p) + a)%Z) (sgAtoms sg).
Proof.
  intros Hp Hb Hg. destruct Hk as [Hok|(_ & _ & H0)]; [|rewrite (H0 _ _ _ Hp) in Hb; lia].
  apply lookup_lt_Some in Hp as Hlt. rewrite Hlen in Hlt.
  destruct (lookup_lt_is_Some_2 _ _ Hlt) as [ml Hml]. destruct (mol_at p ml Hml) as (x & Hx & -> & Hs).
  destruct (Hok p _ _ Hml Hs) as [H1 H2]. cbn [moSpecies moId moFirst] in *. fold sps in H1, H2.
  destruct (F_lookup_inv sps _ _ Hx) as (H1' & H2' & H3').
  destruct (F_lookup sps _ _ _ H1' H2') as [_ Ho]. rewrite <- H3' in Ho. specialize (Ho (fun s => gtN (sel s))). cbn beta in Ho.
  rewrite <- Ho in H1, H2. rewrite Hp in H1. injection H1 as -> ->.
  assert (Hl : length (gtGroups (sel (fsp x))) = Z.to_nat (gtN (sel (fsp x)))).
  { destruct (topo x) as [? _ _ _]; [by eapply elem_of_list_lookup_2|]. lia. }
  destruct (lookup_lt_is_Some_2 (gtGroups (sel (fsp x))) b) as [sg Hsg]; [lia|].
  specialize (H2 b sg Hsg). rewrite Hg in H2. injection H2 as ->. exists x, sg. done.
Qed.
Lemma group_exists p x b : F !! p = Some x -> b < Z.to_nat (gtN (sel (fsp x))) ->
  gsMol gs !! p = Some (off (fun s => gtN (sel s)) F p, Z.to_nat (gtN (sel (fsp x)))) /\
  exists g, gsArr gs !! (off (fun s => gtN (sel s)) F p + b) = Some g.
Proof.
  intros Hx Hb. destruct (F_lookup_inv sps _ _ Hx) as (H1' & H2' & H3').
  destruct Hk as [Hok|(H0 & _)]; [|rewrite (H0 _ _ H1') in Hb; cbn in Hb; lia].
  pose proof (mok_mol _ Hmok _ _ _ H1' H2') as E. fold sps in E. rewrite <- H3' in E.
  destruct (Hok p _ _ E H1') as [H1 H2]. cbn [moSpecies moId moFirst] in *. fold sps in H1, H2.
  destruct (F_lookup sps _ _ _ H1' H2') as [_ Ho]. rewrite <- H3' in Ho. specialize (Ho (fun s => gtN (sel s))). cbn beta in Ho.
  rewrite <- Ho in H1, H2. split; [done|].
  assert (Hl : length (gtGroups (sel (fsp x))) = Z.to_nat (gtN (sel (fsp x)))).
  { destruct (topo x) as [? _ _ _]; [by eapply elem_of_list_lookup_2|]. lia. }
  destruct (lookup_lt_is_Some_2 (gtGroups (sel (fsp x))) b) as [sg Hsg]; [lia|]. eauto.
Qed.
Lemma group_mol_len p x : F !! p = Some x -> exists f n, gsMol gs !! p = Some (f, n).
Proof.
  intros Hx. destruct (lookup_lt_is_Some_2 (gsMol gs) p) as [[f n] H]; [|eauto].
  rewrite Hlen, (mok_count _ Hmok). apply lookup_lt_Some in Hx. unfold F in Hx. rewrite flat_length in Hx.
  unfold before. rewrite firstn_all. by rewrite <- capacity_sum.
Qed.
(** An atom of a molecule is in one of its groups exactly if the species says so. *)
Lemma in_group p x sg b q y a : F !! p = Some x -> gtGroups (sel (fsp x)) !! b = Some sg ->
  F !! q = Some y -> a < Z.to_nat (spNAtom (fsp y)) ->
  Z.of_nat (off spNAtom F q + a) ∈ map (fun z => (Z.of_nat (off spNAtom F p) + z)%Z) (sgAtoms sg) <->
  p = q /\ Z.of_nat a ∈ sgAtoms sg.
Proof.
  intros Hx Hsg Hy Ha. destruct (topo x) as [_ _ Hg _]; [by eapply elem_of_list_lookup_2|]. destruct (Hg _ _ Hsg) as (_ & _ & Hr). split.
  - intros (z & Ez & Hz)%elem_of_list_fmap. destruct (Hr z Hz) as [Hz0 Hz1].
    destruct (off_inj spNAtom F p q x y (Z.to_nat z) a Hx Hy) as [-> <-]; [lia|lia|lia|]. split; [done|]. by rewrite Z2Nat.id.
  - intros [-> Hz]. apply elem_of_list_fmap. exists (Z.of_nat a). split; [lia|done].
Qed.
Lemma group_atoms_NoDup p x sg b : F !! p = Some x -> gtGroups (sel (fsp x)) !! b = Some sg ->
  NoDup (map (fun z => (Z.of_nat (off spNAtom F p) + z)%Z) (sgAtoms sg)).
Proof.
  intros Hx Hsg. destruct (topo x) as [_ _ Hg _]; [by eapply elem_of_list_lookup_2|]. destruct (Hg _ _ Hsg) as (_ & Hnd & _).
  apply (NoDup_fmap_2_strong (fun z => (Z.of_nat (off spNAtom F p) + z)%Z)); [|done]. intros z1 z2 _ _ H. lia.
Qed.

Definition counts (fl : list bool) (cnt : list Z) : Prop :=
  forall p f n b g, gsMol gs !! p = Some (f, n) -> b < n -> gsArr gs !! (f + b) = Some g ->
    cnt !! (f + b) = Some (Z.of_nat (n_inactive fl g)).

Lemma bump_Ok to fl cnt p x a : F !! p = Some x -> a < Z.to_nat (spNAtom (fsp x)) ->
  fl !! (off spNAtom F p + a) = Some (negb to) -> counts fl cnt ->
  exists cnt', bump (if to then (-1)%Z else 1%Z) gs (sel (fsp x)) p (Z.of_nat a) cnt = Ok cnt' /\
    counts (<[off spNAtom F p + a := to]> fl) cnt'.
Proof.
  intros Hx Ha Hfl Hc. destruct (topo x) as [Hn Hids Hgr Hlist]; [by eapply elem_of_list_lookup_2|].
  unfold bump. destruct (decide (gtN (sel (fsp x)) = 0%Z)) as [H0|H0].
  - rewrite bool_decide_eq_true_2 by done. exists cnt. split; [done|]. intros q f n b g Hq Hb Hg.
    rewrite (Hc q f n b g Hq Hb Hg). do 2 f_equal. unfold n_inactive. f_equal. symmetry. apply filter_same.
    destruct (group_at q f n b g Hq Hb Hg) as (y & sg & Hy & -> & -> & Hsg & ->). intros z Hz.
    apply list_lookup_insert_ne. intros E.
    assert (Hz' : Z.of_nat (off spNAtom F p + a) ∈ map (fun z => (Z.of_nat (off spNAtom F q) + z)%Z) (sgAtoms sg)).
    { replace (Z.of_nat (off spNAtom F p + a)) with z; [done|]. apply elem_of_list_fmap in Hz as (w & -> & Hw).
      destruct (topo y) as [_ _ Hg' _]; [by eapply elem_of_list_lookup_2|]. destruct (Hg' _ _ Hsg) as (_ & _ & Hr). specialize (Hr w Hw). lia. }
    apply (in_group q y sg b p x a Hy Hsg Hx Ha) in Hz' as [-> _]. assert (y = x) as -> by congruence. rewrite H0 in Hb. cbn in Hb. lia.
  - rewrite bool_decide_eq_false_2 by done.
    destruct (lookup_lt_is_Some_2 (gtIds (sel (fsp x))) a) as [ids Hids']; [lia|].
    unfold zget at 1. rewrite decide_True by lia. rewrite Nat2Z.id, (aget_Ok' _ _ _ Hids'). cbn [obind].
    destruct (Hlist a ids Hids') as [Hnd Hmem].
    destruct (group_mol_len p x Hx) as (f & n & Hp).
    assert (Hb0 : 0 < Z.to_nat (gtN (sel (fsp x)))) by lia.
    destruct (group_exists p x 0 Hx Hb0) as [Hp' _]. rewrite Hp' in Hp. injection Hp as <- <-.
    rewrite (aget_Ok' _ _ _ Hp'). cbn [obind].
    set (f := off (fun s => gtN (sel s)) F p) in *.
    assert (Hr : forall id, id ∈ ids -> (0 <= id < gtN (sel (fsp x)))%Z).
    { intros id (g & H1 & H2 & _)%Hmem. apply lookup_lt_Some in H2. lia. }
    destruct (bump_fold (Z.of_nat f) (if to then (-1)%Z else 1%Z) ids cnt) as (cnt' & E & Hl & Hlk); [lia|done| |].
    { intros id Hid. specialize (Hr id Hid). split; [lia|].
      destruct (group_exists p x (Z.to_nat id) Hx) as (_ & g & Hg); [lia|]. fold f in Hg.
      pose proof (Hc p f _ (Z.to_nat id) g Hp' ltac:(lia) Hg) as H. apply lookup_lt_Some in H. lia. }
    exists cnt'. split; [exact E|]. intros q f' n b g Hq Hb Hg. rewrite Hlk. rewrite (Hc q f' n b g Hq Hb Hg).
    destruct (group_at q f' n b g Hq Hb Hg) as (y & sg & Hy & Ef & -> & Hsg & Eat).
    unfold n_inactive. rewrite (filter_flip to); [|rewrite Eat; by eapply group_atoms_NoDup|done].
    pose proof (in_group q y sg b p x a Hy Hsg Hx Ha) as Hing. rewrite <- Eat in Hing.
    assert (Hiff : (Z.of_nat (f' + b) - Z.of_nat f)%Z ∈ ids <-> Z.of_nat (off spNAtom F p + a) ∈ grAtoms g).
    { rewrite Hing. split.
      - intros Hid. pose proof (Hr _ Hid). subst f'.
        destruct (off_inj (fun s => gtN (sel s)) F q p y x b (Z.to_nat (Z.of_nat (off (fun s => gtN (sel s)) F q + b) - Z.of_nat f)) Hy Hx) as [-> Eb]; [done|lia|fold f; lia|].
        split; [done|]. assert (y = x) as -> by congruence. apply Hmem in Hid as (g' & H1 & H2 & H3). rewrite <- Eb in H2.
        rewrite Hsg in H2. by injection H2 as <-.
      - intros [-> Hin']. assert (y = x) as -> by congruence. subst f'. fold f. replace (Z.of_nat (f + b) - Z.of_nat f)%Z with (Z.of_nat b) by lia.
        apply Hmem. exists sg. split; [lia|]. by rewrite Nat2Z.id. }
    destruct (decide (Z.of_nat (off spNAtom F p + a) ∈ grAtoms g)) as [Hd|Hd].
    + rewrite decide_True by (by apply Hiff). done.
    + rewrite decide_False by (by rewrite Hiff). f_equal. lia.
Qed.

Lemma fill_counts fl fl' cnt p x : F !! p = Some x -> counts fl cnt ->
  (forall i, fl' !! i = if decide (off spNAtom F p <= i < off spNAtom F p + Z.to_nat (spNAtom (fsp x))) then Some true else fl !! i) ->
  exists f n, gsMol gs !! p = Some (f, n) /\ exists cnt', fill cnt f n 0%Z = Ok cnt' /\ counts fl' cnt'.
Proof.
  intros Hx Hc Hfl. destruct (group_mol_len p x Hx) as (f & n & Hp). exists f, n. split; [done|].
  destruct (fill_Ok cnt f n 0%Z) as (cnt' & E & Hl & Hlk).
  { destruct n as [|n]; [by right|]. left.
    assert (Hex : exists g, gsArr gs !! (f + n) = Some g).
    { destruct (decide (0 < Z.to_nat (gtN (sel (fsp x))))) as [H0|H0].
      - destruct (group_exists p x 0 Hx H0) as [H _]. rewrite Hp in H. injection H as H1 H2.
        destruct (group_exists p x n Hx) as [_ [g Hg]]; [lia|]. rewrite <- H1 in Hg. eauto.
      - destruct Hk as [Hok|(_ & _ & Hz)]; [|by specialize (Hz _ _ _ Hp)].
        destruct (F_lookup_inv sps _ _ Hx) as (H1' & H2' & H3').
        pose proof (mok_mol _ Hmok _ _ _ H1' H2') as E. fold sps in E. rewrite <- H3' in E.
        destruct (Hok p _ _ E H1') as [H1 _]. rewrite Hp in H1. injection H1 as _ H1. lia. }
    destruct Hex as [g Hg]. pose proof (Hc p f _ n g Hp ltac:(lia) Hg) as H. apply lookup_lt_Some in H. lia. }
  exists cnt'. split; [done|]. intros q f' n' b g Hq Hb Hg. rewrite Hlk.
  destruct (group_at q f' n' b g Hq Hb Hg) as (y & sg & Hy & -> & -> & Hsg & Eat).
  assert (Hat : forall z, z ∈ grAtoms g -> (Z.of_nat (off spNAtom F q) <= z < Z.of_nat (off spNAtom F q) + spNAtom (fsp y))%Z).
  { rewrite Eat. intros z (w & -> & Hw)%elem_of_list_fmap.
    destruct (topo y) as [_ _ Hg' _]; [by eapply elem_of_list_lookup_2|]. destruct (Hg' _ _ Hsg) as (_ & _ & Hr). specialize (Hr w Hw). lia. }
  destruct (decide (q = p)) as [->|Hqp].
  - assert (y = x) as -> by congruence. rewrite Hp in Hq. injection Hq as -> ->.
    rewrite decide_True by lia. f_equal.
    replace (n_inactive fl' g) with 0; [done|]. unfold n_inactive. symmetry.
    assert (Hf : filter (inactive fl') (grAtoms g) = []).
    { apply list_filter_empty_iff || idtac. destruct (filter (inactive fl') (grAtoms g)) as [|z l] eqn:Ez; [done|exfalso].
      assert (Hz : z ∈ filter (inactive fl') (grAtoms g)) by (rewrite Ez; left).
      apply elem_of_list_filter in Hz as [[Hz0 Hz1] Hz2]. specialize (Hat z Hz2). rewrite Hfl, decide_True in Hz1 by lia. done. }
    by rewrite Hf.
  - rewrite decide_False.
    + rewrite (Hc q _ _ b g Hq Hb Hg). do 2 f_equal. unfold n_inactive. f_equal. symmetry. apply filter_same. intros z Hz.
      specialize (Hat z Hz). rewrite Hfl. rewrite decide_False; [done|]. intros Hr. apply Hqp.
      destruct (off_inj spNAtom F q p y x (Z.to_nat z - off spNAtom F q) (Z.to_nat z - off spNAtom F p) Hy Hx) as [? _]; [lia|lia|lia|done].
    + intros Hr. apply Hqp. assert (0 < n) as Hn by lia.
      destruct (decide (0 < Z.to_nat (gtN (sel (fsp x))))) as [H0|H0].
      * destruct (group_exists p x 0 Hx H0) as [H _]. rewrite Hp in H. injection H as -> ->.
        destruct (off_inj (fun s => gtN (sel s)) F q p y x b (off (fun s => gtN (sel s)) F q + b - off (fun s => gtN (sel s)) F p) Hy Hx) as [? _];
          [done|lia|lia|done].
      * destruct Hk as [Hok|(_ & _ & Hz)]; [|by rewrite (Hz _ _ _ Hp) in Hn; lia].
        destruct (F_lookup_inv sps _ _ Hx) as (H1' & H2' & H3').
        pose proof (mok_mol _ Hmok _ _ _ H1' H2') as E'. fold sps in E'. rewrite <- H3' in E'.
        destruct (Hok p _ _ E' H1') as [H1 _]. rewrite Hp in H1. injection H1 as _ H1. lia.
Qed.

Lemma counts_counts_ok fl cnt : length fl = length (siAtoms s) -> counts fl cnt -> counts_ok gs fl cnt.
Proof.
  intros Hfl Hc p f n b g Hp Hb Hg. pose proof (Hc p f n b g Hp Hb Hg) as H. split; [done|].
  unfold group_active. rewrite (aget_Ok' _ _ _ H). cbn [obind].
  destruct (group_at p f n b g Hp Hb Hg) as (y & sg & Hy & -> & -> & Hsg & Eat).
  assert (Hat : forall z, z ∈ grAtoms g -> (0 <= z)%Z /\ Z.to_nat z < length fl).
  { rewrite Eat. intros z (w & -> & Hw)%elem_of_list_fmap.
    destruct (topo y) as [_ _ Hg' _]; [by eapply elem_of_list_lookup_2|]. destruct (Hg' _ _ Hsg) as (_ & _ & Hr). specialize (Hr w Hw).
    split; [lia|]. rewrite Hfl, (mok_atoms _ Hmok). apply lookup_lt_Some in Hy as HyF.
    pose proof (off_lt spNAtom F p y _ Hy HyF) as Ho. unfold F in Ho at 2 3. rewrite off_all in Ho.
    unfold before. rewrite firstn_all. rewrite <- capacity_sum. fold sps. lia. }
  unfold n_inactive. split.
  - intros [= E%bool_decide_eq_true] a Ha. destruct (Hat a Ha) as [Ha0 Ha1]. split; [done|].
    destruct (lookup_lt_is_Some_2 fl (Z.to_nat a) Ha1) as [[] Hv]; [done|exfalso].
    assert (a ∈ filter (inactive fl) (grAtoms g)) as Hin' by (apply elem_of_list_filter; done).
    destruct (filter (inactive fl) (grAtoms g)); [by apply elem_of_nil in Hin'|]. cbn in E. lia.
  - intros Hall. f_equal. apply bool_decide_eq_true. destruct (filter (inactive fl) (grAtoms g)) as [|z l] eqn:Ez; [done|exfalso].
    assert (z ∈ filter (inactive fl) (grAtoms g)) as Hz by (rewrite Ez; left).
    apply elem_of_list_filter in Hz as [[_ Hz1] Hz]. destruct (Hall z Hz) as [_ ?]. congruence.
Qed.
End Kind.

(** ** Histories *)
Context (HB : kind_ok spBond (siBonds s)) (HA : kind_ok spAngle (siAngles s)) (HD : kind_ok spDihedral (siDihedrals s)).
Context (HlB : length (gsMol (siBonds s)) = length (siMols s)) (HlA : length (gsMol (siAngles s)) = length (siMols s))
  (HlD : length (gsMol (siDihedrals s)) = length (siMols s)).

Definition inv (st : act) : Prop :=
  length (acAtoms st) = length (siAtoms s) /\
  counts (siBonds s) (acAtoms st) (acB st) /\ counts (siAngles s) (acAtoms st) (acA st) /\ counts (siDihedrals s) (acAtoms st) (acD st).

Lemma selB sp : species_ok sp -> topology_ok 2 (spNAtom sp) (spBond sp). Proof. by intros (_ & ? & _). Qed.
Lemma selA sp : species_ok sp -> topology_ok 3 (spNAtom sp) (spAngle sp). Proof. by intros (_ & _ & ? & _). Qed.
Lemma selD sp : species_ok sp -> topology_ok 4 (spNAtom sp) (spDihedral sp). Proof. by intros (_ & _ & _ & ?). Qed.

Lemma inv_consistent st : inv st -> consistent s st.
Proof.
  intros (Hl & H1 & H2 & H3). split; [done|]. split; [|split].
  - by eapply (counts_counts_ok spBond (siBonds s) 2 selB).
  - by eapply (counts_counts_ok spAngle (siAngles s) 3 selA).
  - by eapply (counts_counts_ok spDihedral (siDihedrals s) 4 selD).
Qed.
Lemma inv_act0 : inv (act0 s).
Proof.
  split; [apply replicate_length|].
  assert (H : forall gs, counts gs (acAtoms (act0 s)) (replicate (length (gsArr gs)) 0%Z)).
  { intros gs p f n b g _ _ Hg. apply lookup_lt_Some in Hg as Hlt. rewrite lookup_replicate_2 by done. f_equal.
    replace (n_inactive _ g) with 0; [done|]. unfold n_inactive. symmetry.
    assert (Hf : filter (inactive (acAtoms (act0 s))) (grAtoms g) = []); [|by rewrite Hf].
    destruct (filter _ (grAtoms g)) as [|z l] eqn:Ez; [done|exfalso].
    assert (z ∈ filter (inactive (acAtoms (act0 s))) (grAtoms g)) as Hz by (rewrite Ez; left).
    apply elem_of_list_filter in Hz as [[_ Hz1] Hz]. cbn in Hz1. apply lookup_replicate in Hz1 as [? _]. done. }
  split; [apply H|split; apply H].
Qed.

Lemma atom_at x at' : siAtoms s !! x = Some at' ->
  exists y, F !! atMol at' = Some y /\ siMols s !! atMol at' = Some (Mol y.2 y.1.2 (Z.to_nat (spNAtom (fsp y))) (off spNAtom F (atMol at'))) /\
    sps !! y.1.2 = Some (fsp y) /\ off spNAtom F (atMol at') <= x < off spNAtom F (atMol at') + Z.to_nat (spNAtom (fsp y)).
Proof.
  intros Hx. destruct (mok_owned _ Hmok x at' Hx) as (ml & Hml & Hr). destruct (mol_at _ _ Hml) as (y & Hy & -> & Hs).
  exists y. done.
Qed.

Lemma flip_Ok to st x : inv st -> acAtoms st !! x = Some (negb to) ->
  exists st', flip to s st x = Ok st' /\ inv st' /\ acAtoms st' = <[x := to]> (acAtoms st).
Proof.
  intros (Hl & H1 & H2 & H3) Hx. unfold flip. rewrite (aget_Ok' _ _ _ Hx). cbn [obind]. rewrite bool_decide_eq_true_2 by done. cbn [check obind].
  apply lookup_lt_Some in Hx as Hlt. rewrite aset_Ok' by done. cbn [obind].
  destruct (lookup_lt_is_Some_2 (siAtoms s) x) as [at' Hat]; [lia|]. rewrite (aget_Ok' _ _ _ Hat). cbn [obind].
  destruct (atom_at x at' Hat) as (y & Hy & Hml & Hs & Hr). rewrite (aget_Ok' _ _ _ Hml). cbn [obind moSpecies moFirst].
  fold sps. rewrite (aget_Ok' _ _ _ Hs). cbn [obind].
  set (q := off spNAtom F (atMol at')) in *. replace (Z.of_nat x - Z.of_nat q)%Z with (Z.of_nat (x - q)) by lia.
  assert (Ex : off spNAtom F (atMol at') + (x - q) = x) by (fold q; lia).
  assert (Ha : x - q < Z.to_nat (spNAtom (fsp y))) by lia.
  rewrite <- Ex in Hx at 1.
  destruct (bump_Ok spBond (siBonds s) 2 selB HB HlB to _ (acB st) _ y (x - q) Hy Ha Hx H1) as (cb & -> & Cb). cbn [obind].
  destruct (bump_Ok spAngle (siAngles s) 3 selA HA HlA to _ (acA st) _ y (x - q) Hy Ha Hx H2) as (ca & -> & Ca). cbn [obind].
  destruct (bump_Ok spDihedral (siDihedrals s) 4 selD HD HlD to _ (acD st) _ y (x - q) Hy Ha Hx H3) as (cd & -> & Cd). cbn [obind].
  rewrite Ex in Cb, Ca, Cd. eexists. split; [reflexivity|]. split; [|done]. split; cbn [acAtoms]; [by rewrite insert_length|]. done.
Qed.
Lemma activate_Ok st p ml : inv st -> siMols s !! p = Some ml ->
  exists st', activate s st p = Ok st' /\ inv st' /\
    forall x, acAtoms st' !! x = if decide (moFirst ml <= x < moFirst ml + moNAtom ml) then Some true else acAtoms st !! x.
Proof.
  intros (Hl & H1 & H2 & H3) Hp. unfold activate. rewrite (aget_Ok' _ _ _ Hp). cbn [obind].
  destruct (mol_at p ml Hp) as (y & Hy & -> & Hs). cbn [moFirst moNAtom].
  destruct (fill_Ok (acAtoms st) (off spNAtom F p) (Z.to_nat (spNAtom (fsp y))) true) as (fl & -> & Hl' & Hfl).
  { left. rewrite Hl, (mok_atoms _ Hmok). apply lookup_lt_Some in Hy as HyF.
    pose proof (off_lt spNAtom F p y _ Hy HyF) as Ho. unfold F in Ho at 2 3. rewrite off_all in Ho.
    unfold before. rewrite firstn_all. rewrite <- capacity_sum. fold sps. lia. }
  cbn [obind].
  destruct (fill_counts spBond (siBonds s) 2 selB HB HlB _ fl (acB st) p y Hy H1 Hfl) as (f1 & n1 & E1 & c1 & G1 & C1).
  rewrite (aget_Ok' _ _ _ E1). cbn [obind]. rewrite G1. cbn [obind].
  destruct (fill_counts spAngle (siAngles s) 3 selA HA HlA _ fl (acA st) p y Hy H2 Hfl) as (f2 & n2 & E2 & c2 & G2 & C2).
  rewrite (aget_Ok' _ _ _ E2). cbn [obind]. rewrite G2. cbn [obind].
  destruct (fill_counts spDihedral (siDihedrals s) 4 selD HD HlD _ fl (acD st) p y Hy H3 Hfl) as (f3 & n3 & E3 & c3 & G3 & C3).
  rewrite (aget_Ok' _ _ _ E3). cbn [obind]. rewrite G3. cbn [obind].
  eexists. split; [reflexivity|]. split; [|done]. split; cbn [acAtoms]; [lia|]. done.
Qed.

Lemma act_history ops st : inv st ->
  Forall (fun o => match o with ODeactivate x | OReactivate x => x < length (siAtoms s) | OActivate p => p < length (siMols s) end) ops ->
  run (act_step s) st ops = Throw \/ exists st', run (act_step s) st ops = Ok st' /\ inv st'.
Proof.
  revert st. induction ops as [|o ops IH]; intros st Hi Hv; [right; eauto|].
  apply Forall_cons in Hv as [Ho Hv]. cbn [run].
  assert (Hflip : forall to x, x < length (siAtoms s) -> flip to s st x = Throw \/ exists st', flip to s st x = Ok st' /\ inv st').
  { intros to x Hx. destruct Hi as [Hl Hc]. destruct (lookup_lt_is_Some_2 (acAtoms st) x) as [b Hb]; [lia|].
    destruct (decide (b = negb to)) as [->|Hne].
    - right. destruct (flip_Ok to st x (conj Hl Hc) Hb) as (st' & ? & ? & _). eauto.
    - left. unfold flip. rewrite (aget_Ok' _ _ _ Hb). cbn [obind]. by rewrite bool_decide_eq_false_2. }
  destruct o as [x|x|p]; cbn [act_step].
  - destruct (Hflip false x Ho) as [->|(st' & -> & Hi')]; [by left|]. cbn [obind]. by apply IH.
  - destruct (Hflip true x Ho) as [->|(st' & -> & Hi')]; [by left|]. cbn [obind]. by apply IH.
  - destruct (lookup_lt_is_Some_2 _ _ Ho) as [ml Hml]. destruct (activate_Ok st p ml Hi Hml) as (st' & -> & Hi' & _). cbn [obind]. by apply IH.
Qed.
End Act.

Lemma init_kinds nB nA nD bonded sps s : input_ok sps -> (0 <= nB)%Z -> (0 <= nA)%Z -> (0 <= nD)%Z ->
  ((0 < nB)%Z \/ forall sp, sp ∈ sps -> gtN (spBond sp) = 0%Z) ->
  ((0 < nA)%Z \/ forall sp, sp ∈ sps -> gtN (spAngle sp) = 0%Z) ->
  ((0 < nD)%Z \/ forall sp, sp ∈ sps -> gtN (spDihedral sp) = 0%Z) ->
  init_sim nB nA nD bonded sps = Ok s ->
  siSpecies s = sps /\ molecules_ok s /\ kind_ok s spBond (siBonds s) /\ kind_ok s spAngle (siAngles s) /\ kind_ok s spDihedral (siDihedrals s) /\
  length (gsMol (siBonds s)) = length (siMols s) /\ length (gsMol (siAngles s)) = length (siMols s) /\
  length (gsMol (siDihedrals s)) = length (siMols s).
Proof.
  intros Hin HB HA HD HB' HA' HD' Hs.
  destruct (init_layout nB nA nD bonded sps Hin HB HA HD) as (s' & E & Hsp & Hmok & GB & GA & GD & _ & _ & Hlen & Hz).
  rewrite Hs in E. injection E as <-. split; [done|]. split; [done|].
  assert (L1 := Hlen (siBonds s) ltac:(left)). assert (L2 := Hlen (siAngles s) ltac:(right; left)).
  assert (L3 := Hlen (siDihedrals s) ltac:(right; right; left)).
  split; [|split; [|split; [|done]]].
  - destruct (decide (0 < nB)%Z); [left; auto|right]. destruct HB' as [?|HB']; [lia|]. split; [|split; [done|]].
    + intros i sp H. rewrite Hsp in H. apply HB'. by eapply elem_of_list_lookup_2.
    + apply (Hz nB); [left|lia].
  - destruct (decide (0 < nA)%Z); [left; auto|right]. destruct HA' as [?|HA']; [lia|]. split; [|split; [done|]].
    + intros i sp H. rewrite Hsp in H. apply HA'. by eapply elem_of_list_lookup_2.
    + apply (Hz nA); [right; left|lia].
  - destruct (decide (0 < nD)%Z); [left; auto|right]. destruct HD' as [?|HD']; [lia|]. split; [|split; [done|]].
    + intros i sp H. rewrite Hsp in H. apply HD'. by eapply elem_of_list_lookup_2.
    + apply (Hz nD); [right; right; left|lia].
Qed.

(** For every simulation whose groups were created: in every history of calls on existing atoms and molecules, no call is
    undefined, a call throws only if the atom already is in the state asked for, and after it every group is consistent. *)
Theorem activity_consistent nB nA nD bonded sps s ops :
  input_ok sps -> (0 <= nB)%Z -> (0 <= nA)%Z -> (0 <= nD)%Z ->
  ((0 < nB)%Z \/ forall sp, sp ∈ sps -> gtN (spBond sp) = 0%Z) ->
  ((0 < nA)%Z \/ forall sp, sp ∈ sps -> gtN (spAngle sp) = 0%Z) ->
  ((0 < nD)%Z \/ forall sp, sp ∈ sps -> gtN (spDihedral sp) = 0%Z) ->
  init_sim nB nA nD bonded sps = Ok s ->
  Forall (fun o => match o with ODeactivate x | OReactivate x => x < length (siAtoms s) | OActivate p => p < length (siMols s) end) ops ->
  run (act_step s) (act0 s) ops = Throw \/ exists st, run (act_step s) (act0 s) ops = Ok st /\ consistent s st.
Proof.
  intros Hin HB HA HD HB' HA' HD' Hs Hops.
  destruct (init_kinds nB nA nD bonded sps s Hin HB HA HD HB' HA' HD' Hs) as (Hsp & Hmok & KB & KA & KD & L1 & L2 & L3).
  rewrite <- Hsp in Hin.
  destruct (act_history s Hin Hmok KB KA KD L1 L2 L3 ops (act0 s) (inv_act0 s) Hops) as [?|(st & H1 & H2)]; [by left|right].
  exists st. split; [done|]. by apply inv_consistent.
Qed.
(** The effect of each call on the atoms. *)
Theorem activity_effects nB nA nD bonded sps s ops st :
  input_ok sps -> (0 <= nB)%Z -> (0 <= nA)%Z -> (0 <= nD)%Z ->
  ((0 < nB)%Z \/ forall sp, sp ∈ sps -> gtN (spBond sp) = 0%Z) ->
  ((0 < nA)%Z \/ forall sp, sp ∈ sps -> gtN (spAngle sp) = 0%Z) ->
  ((0 < nD)%Z \/ forall sp, sp ∈ sps -> gtN (spDihedral sp) = 0%Z) ->
  init_sim nB nA nD bonded sps = Ok s ->
  Forall (fun o => match o with ODeactivate x | OReactivate x => x < length (siAtoms s) | OActivate p => p < length (siMols s) end) ops ->
  run (act_step s) (act0 s) ops = Ok st ->
  (forall x, acAtoms st !! x = Some true -> act_step s st (OReactivate x) = Throw /\
     exists st', act_step s st (ODeactivate x) = Ok st' /\ acAtoms st' = <[x := false]> (acAtoms st)) /\
  (forall x, acAtoms st !! x = Some false -> act_step s st (ODeactivate x) = Throw /\
     exists st', act_step s st (OReactivate x) = Ok st' /\ acAtoms st' = <[x := true]> (acAtoms st)) /\
  (forall p ml, siMols s !! p = Some ml -> exists st', act_step s st (OActivate p) = Ok st' /\
     forall x, acAtoms st' !! x = if decide (moFirst ml <= x < moFirst ml + moNAtom ml) then Some true else acAtoms st !! x).
Proof.
  intros Hin HB HA HD HB' HA' HD' Hs Hops Hr.
  destruct (init_kinds nB nA nD bonded sps s Hin HB HA HD HB' HA' HD' Hs) as (Hsp & Hmok & KB & KA & KD & L1 & L2 & L3).
  rewrite <- Hsp in Hin.
  destruct (act_history s Hin Hmok KB KA KD L1 L2 L3 ops (act0 s) (inv_act0 s) Hops) as [?|(st' & H1 & Hi)]; [congruence|].
  assert (st' = st) as -> by congruence.
  split; [|split].
  - intros x Hx. split.
    + cbn [act_step]. unfold flip. rewrite (aget_Ok' _ _ _ Hx). done.
    + destruct (flip_Ok s Hin Hmok KB KA KD L1 L2 L3 false st x Hi Hx) as (st' & ? & _ & ?). eauto.
  - intros x Hx. split.
    + cbn [act_step]. unfold flip. rewrite (aget_Ok' _ _ _ Hx). done.
    + destruct (flip_Ok s Hin Hmok KB KA KD L1 L2 L3 true st x Hi Hx) as (st' & ? & _ & ?). eauto.
  - intros p ml Hp. destruct (activate_Ok s Hin Hmok KB KA KD L1 L2 L3 st p ml Hi Hp) as (st' & ? & _ & ?). eauto.
Qed.

(** Without bond types the bonds of a molecule are not made, and deactivating an atom with bonds is undefined. *)
Theorem deactivate_without_groups_refuted :
  exists s, init_sim 0 1 1 true [ex_chain; ex_ion] = Ok s /\ act_step s (act0 s) (ODeactivate 0) = UB.
Proof. eexists. split; [vm_compute; reflexivity|]. vm_compute. done. Qed.

Example ex_activity : exists s st, init_sim 1 1 0 true [ex_chain; ex_ion] = Ok s /\
  run (act_step s) (act0 s) [ODeactivate 4; ODeactivate 5; ODeactivate 1; OReactivate 4; OActivate 0] = Ok st /\
  acB st = [0; 0; 0; 1]%Z /\ acA st = [0; 1]%Z /\ group_active (acB st) 2 = Ok true.
Proof. eexists _, _. split; [vm_compute; reflexivity|]. split; [vm_compute; reflexivity|]. done. Qed.

Print Assumptions activity_consistent.
Print Assumptions activity_effects.
Print Assumptions deactivate_without_groups_refuted.
