(** Proofs about the identification of clusters. *)
From stdpp Require Import relations list.
From Verif Require Import Base Vec3 BoxSpec McCellModel DomainModel SpeciesModel SpeciesProofs CellListModel CellListSpec PairListModel EnergyModel ClusterModel ClusterSpec.
From Coq Require Import Reals Lra.
Local Open Scope nat_scope.

Definition mark (links : list clink) (m : nat) : option Z := lCl <$> links !! m.

Lemma linked_ext links links' p L : linked links p L -> (forall i, i ∈ L -> links' !! i = links !! i) -> linked links' p L.
Proof.
  induction 1 as [|i l tl Hi H IH]; intros E; [constructor|]. econstructor; [rewrite E; [done|left]|]. apply IH. intros j Hj. apply E. by right.
Qed.
Lemma valid_loop_ok links id : forall L p n fuel, linked links p L -> (forall m, m ∈ L -> mark links m = Some id) -> length L < fuel ->
  valid_loop fuel p id links n = Ok (Some (n + Z.of_nat (length L))%Z).
Proof.
  induction L as [|i L IH]; intros p n [|fuel] HL Hm Hf; inversion HL as [|? l ? Hi HL']; subst; cbn [length] in *; try lia; cbn [valid_loop].
  - f_equal. f_equal. lia.
  - unfold aget. rewrite Hi. cbn [obind]. assert (lCl l = id) as E.
    { pose proof (Hm i ltac:(left)) as H. unfold mark in H. rewrite Hi in H. by injection H. }
    rewrite decide_True by done. rewrite IH; [|done|intros m Hin; apply Hm; by right|lia]. f_equal. f_equal. lia.
Qed.

Section Graph.
  Context (mols : list nat) (Hnd : NoDup mols) (T : nat -> nat -> Prop).
  Context (T_sym : forall x y, T x y -> T y x) (T_in : forall x y, T x y -> x ∈ mols /\ y ∈ mols).
  Local Notation conn := (rtc T).

  Lemma conn_in x y : x ∈ mols -> conn x y -> y ∈ mols.
  Proof. intros Hx H. revert Hx. induction H as [|x y z H1 H2 IH]; [done|]. intros _. apply IH. by apply (T_in x y). Qed.
  Lemma conn_sym x y : conn x y -> conn y x.
  Proof.
    induction 1 as [|x y z H1 H2 IH]; [constructor|]. etransitivity; [exact IH|]. apply rtc_once. by apply T_sym.
  Qed.

  Definition good (links : list clink) : Prop := forall m, m ∈ mols -> exists l, links !! m = Some l /\ lMol l = Some m.
  Definition rep (links : list clink) (c : cluster) (k : nat) (L : list nat) : Prop :=
    cId c = Z.of_nat k /\ linked links (cHead c) L /\ NoDup L /\ cSize c = Z.of_nat (length L) /\
    forall m, m ∈ L <-> m ∈ mols /\ mark links m = Some (Z.of_nat k).

  (** The state in which cluster [k] is begun. *)
  Record base (links0 : list clink) (k : nat) : Prop := {
    b_good : good links0;
    b_mark : forall m, m ∈ mols -> mark links0 m = Some (-1)%Z \/ exists j, j < k /\ mark links0 m = Some (Z.of_nat j);
    b_closed : forall m o z, (0 <= z)%Z -> T m o -> mark links0 m = Some z -> mark links0 o = Some z
  }.
  Record expn (links0 : list clink) (k m0 : nat) (s : list clink * cluster * list nat) (L : list nat) : Prop := {
    x_rep : rep s.1.1 s.1.2 k L;
    x_len : length s.1.1 = length links0;
    x_same : forall i, i ∉ L -> s.1.1 !! i = links0 !! i;
    x_good : good s.1.1;
    x_old : forall m, m ∈ L -> mark links0 m = Some (-1)%Z;
    x_conn : forall m, m ∈ L -> conn m0 m;
    x_stack : NoDup s.2;
    x_sub : forall m, m ∈ s.2 -> m ∈ L;
    x_root : m0 ∈ L
  }.
  Lemma x_in links0 k m0 s L m : expn links0 k m0 s L -> m ∈ L -> m ∈ mols.
  Proof. intros X Hm. destruct (x_rep _ _ _ _ _ X) as (_ & _ & _ & _ & H). by apply H. Qed.
  Lemma x_length links0 k m0 s L : expn links0 k m0 s L -> length L <= length mols.
  Proof.
    intros X. apply submseteq_length, NoDup_submseteq; [apply (x_rep _ _ _ _ _ X)|]. intros m Hm. by eapply x_in.
  Qed.

  Lemma add_ok links0 k m0 links c st L o : base links0 k -> expn links0 k m0 (links, c, st) L -> o ∈ mols -> conn m0 o ->
    mark links o = Some (-1)%Z ->
    exists c' links', clu_addLink c o links = Ok (c', links') /\ expn links0 k m0 (links', c', o :: st) (o :: L).
  Proof.
    intros B X Ho Hc Hm. destruct X as [(R1 & R2 & R3 & R4 & R5) X2 X3 X4 X5 X6 X7 X8 X9]. cbn [fst snd] in *.
    destruct (X4 o Ho) as (l & Hl & Hml). assert (o ∉ L) as HoL.
    { intros H. apply R5 in H as [_ H]. rewrite Hm in H. injection H. lia. }
    unfold clu_addLink, aget. rewrite Hl. cbn [obind]. assert (o < length links) as Hlt by (by eapply lookup_lt_Some). unfold aset. rewrite decide_True by done. cbn [obind].
    eexists _, _. split; [done|]. set (links' := <[o := CLk (lMol l) (cHead c) (cId c)]> links).
    assert (E1 : links' !! o = Some (CLk (lMol l) (cHead c) (cId c))) by (by apply list_lookup_insert).
    assert (E2 : forall i, i <> o -> links' !! i = links !! i) by (intros i Hi; unfold links'; by rewrite list_lookup_insert_ne).
    split; cbn [fst snd].
    - split; [done|]. cbn [cHead cSize cId]. split; [|split; [|split]].
      + econstructor; [exact E1|]. cbn [lNext]. eapply linked_ext; [exact R2|]. intros i Hi. apply E2. by intros ->.
      + apply NoDup_cons. done.
      + rewrite R4. cbn [length]. lia.
      + intros m. unfold mark. destruct (decide (m = o)) as [->|Hne].
        * rewrite E1. cbn. rewrite R1. split; [done|]. intros _. left.
        * rewrite E2 by done. rewrite elem_of_cons. unfold mark in R5. rewrite <- R5. tauto.
    - unfold links'. by rewrite insert_length.
    - intros i [Hi1 Hi2]%not_elem_of_cons. rewrite E2 by done. by apply X3.
    - intros m Hin. destruct (decide (m = o)) as [->|Hne]; [rewrite E1; eexists; split; [done|]; done|]. rewrite E2 by done. by apply X4.
    - intros m [->|Hin]%elem_of_cons; [|by apply X5]. unfold mark. rewrite <- X3 by done. exact Hm.
    - intros m [->|Hin]%elem_of_cons; [done|by apply X6].
    - apply NoDup_cons. split; [|done]. intros H. by apply HoL, X8.
    - intros m [->|Hin]%elem_of_cons; [left|right]. by apply X8.
    - by right.
  Qed.
  (** A neighbour that is marked belongs to this cluster. *)
  Lemma no_clash links0 k m0 s L this o z : base links0 k -> expn links0 k m0 s L -> this ∈ L -> T this o ->
    mark s.1.1 o = Some z -> z <> (-1)%Z -> z = Z.of_nat k /\ o ∈ L.
  Proof.
    intros B X Ht HT Hm Hz. destruct (decide (o ∈ L)) as [Ho|Ho].
    - split; [|done]. apply (x_rep _ _ _ _ _ X) in Ho as [_ Ho]. congruence.
    - exfalso. unfold mark in Hm. rewrite (x_same _ _ _ _ _ X o Ho) in Hm.
      destruct (T_in _ _ HT) as [Hin1 Hin2]. destruct (b_mark _ _ B o Hin2) as [E|(j & Hj & E)]; unfold mark in E; [congruence|].
      assert (mark links0 this = Some (Z.of_nat j)) as E' by (apply (b_closed _ _ B o this); [lia|by apply T_sym|done]).
      rewrite (x_old _ _ _ _ _ X this Ht) in E'. injection E'. lia.
  Qed.
End Graph.

Section Run.
  Context (M : nat) (toGen : vec3 R -> vec3 R) (dist2 : vec3 R -> vec3 R -> R) (cutoff : R).
  Context (mols : list nat) (atomsOf : nat -> list nat) (core : nat -> bool) (molOf : nat -> nat) (pos : nat -> vec3 R) (cells : clist).
  Context (Hnd : NoDup mols) (HmolOf : forall m a, m ∈ mols -> a ∈ atomsOf m -> molOf a = m).
  Context (Hsym : forall r q, dist2 r q = dist2 q r).
  Definition is_core (j : nat) : Prop := exists m, m ∈ mols /\ j ∈ atomsOf m /\ core j = true.
  Context (nbs : nat -> list nat).
  Context (Hnb : forall i, is_core i -> get_neighbors M toGen cells (pos i) = Ok (nbs i) /\ (forall j, j ∈ nbs i -> is_core j) /\
     forall j, is_core j -> (dist2 (pos i) (pos j) < cutoff * cutoff)%R -> j ∈ nbs i).
  Local Notation T := (touch dist2 cutoff mols atomsOf core pos).
  Local Notation conn := (rtc T).

  Lemma T_sym x y : T x y -> T y x.
  Proof using Hsym. intros (H1 & H2 & a & b & A1 & A2 & A3 & A4 & A5). split; [done|]. split; [done|]. exists b, a. rewrite Hsym. done. Qed.
  Lemma T_in x y : T x y -> x ∈ mols /\ y ∈ mols.
  Proof using Type. intros (H1 & H2 & _). done. Qed.

  Definition pairs_of_mol (this : nat) : list (nat * nat) :=
    flat_map (fun i => if core i then map (pair i) (nbs i) else []) (atomsOf this).
  Lemma process_flat links c st t l this : links !! t = Some l -> lMol l = Some this -> lCl l = cId c -> this ∈ mols ->
    process M toGen dist2 cutoff atomsOf core molOf pos cells (links, c, t :: st) =
    foldM (fun s p => visit dist2 cutoff molOf pos this p.1 s p.2) (links, c, st) (pairs_of_mol this).
  Proof using Hnb.
    intros Hl Hm Hc Hin. cbn [process]. unfold aget. rewrite Hl. cbn [obind]. rewrite Hm, bool_decide_true by done. cbn [check obind].
    unfold pairs_of_mol. generalize (links, c, st). assert (Hsub : forall i, i ∈ atomsOf this -> i ∈ atomsOf this) by done. revert Hsub.
    generalize (atomsOf this) at 1 3 4. intros as_. induction as_ as [|i as_ IH]; intros Hsub s; cbn [foldM flat_map]; [done|].
    rewrite foldM_app. destruct (core i) eqn:Ei; cbn [foldM obind].
    - destruct (Hnb i) as (-> & _); [exists this; split; [done|]; split; [apply Hsub; left|done]|]. cbn [obind].
      assert (E : forall s, foldM (visit dist2 cutoff molOf pos this i) s (nbs i) = foldM (fun s p => visit dist2 cutoff molOf pos this p.1 s p.2) s (map (pair i) (nbs i))).
      { clear. induction (nbs i) as [|j js IH]; intros s; cbn [foldM map fst snd]; [done|]. destruct (visit _ _ _ _ _ _ s j); cbn [obind]; auto. }
      rewrite E. destruct (foldM _ s _); cbn [obind]; try done. apply IH. intros j Hj. apply Hsub. by right.
    - apply IH. intros j Hj. apply Hsub. by right.
  Qed.
  Lemma in_pairs this i j : (i, j) ∈ pairs_of_mol this <-> i ∈ atomsOf this /\ core i = true /\ j ∈ nbs i.
  Proof using Type.
    unfold pairs_of_mol. rewrite elem_of_list_In, in_flat_map. split.
    - intros (x & Hx & H). destruct (core x) eqn:Ex; [|done]. apply in_map_iff in H as (y & [= -> ->] & Hy). rewrite <- !elem_of_list_In in *. done.
    - intros (H1 & H2 & H3). exists i. rewrite <- elem_of_list_In. split; [done|]. rewrite H2. apply in_map. by apply elem_of_list_In.
  Qed.

  Section Step.
    Context (links0 : list clink) (k m0 : nat) (B : base mols T links0 k).
    Local Notation X := (expn mols T links0 k m0).

    Lemma visits_ok this L0 : this ∈ L0 -> this ∈ mols -> forall ps s L, X s L -> L0 ⊆ L -> (forall p, p ∈ ps -> p ∈ pairs_of_mol this) ->
      exists s' L', foldM (fun s p => visit dist2 cutoff molOf pos this p.1 s p.2) s ps = Ok s' /\ X s' L' /\ L ⊆ L' /\
        (forall m, m ∈ s.2 -> m ∈ s'.2) /\ (forall m, m ∈ L' -> m ∈ L \/ m ∈ s'.2) /\ (length s'.2 + length L = length L' + length s.2)%nat /\
        forall p, p ∈ ps -> molOf p.2 <> this -> (dist2 (pos p.1) (pos p.2) < cutoff * cutoff)%R -> molOf p.2 ∈ L'.
    Proof using Hnb HmolOf Hsym B.
      intros Ht Hin. induction ps as [|[i j] ps IH]; intros s L HX HL Hps; cbn [foldM].
      - exists s, L. split; [done|]. split; [done|]. split; [done|]. split; [done|]. split; [by left|]. split; [lia|]. by intros p ?%elem_of_nil.
      - destruct s as [[links c] st]. cbn [fst snd].
        assert (STEP : exists s1 L1, visit dist2 cutoff molOf pos this i (links, c, st) j = Ok s1 /\ X s1 L1 /\ L ⊆ L1 /\
          (forall m, m ∈ st -> m ∈ s1.2) /\ (forall m, m ∈ L1 -> m ∈ L \/ m ∈ s1.2) /\ (length s1.2 + length L = length L1 + length st)%nat /\
          (molOf j <> this -> (dist2 (pos i) (pos j) < cutoff * cutoff)%R -> molOf j ∈ L1)).
        { assert (SAME : exists s1 L1, Ok (links, c, st) = Ok s1 /\ X s1 L1 /\ L ⊆ L1 /\ (forall m, m ∈ st -> m ∈ s1.2) /\ (forall m, m ∈ L1 -> m ∈ L \/ m ∈ s1.2) /\ (length s1.2 + length L = length L1 + length st)%nat /\ L1 = L).
          { exists (links, c, st), L. split; [done|]. split; [done|]. split; [done|]. split; [done|]. split; [by left|]. split; [cbn [snd]; lia|done]. }
          pose proof (proj1 (in_pairs this i j) (Hps (i, j) ltac:(left))) as (P1 & P2 & P3).
          unfold visit. destruct (decide (molOf j = this)) as [E|E].
          { destruct SAME as (s1 & L1 & A1 & A2 & A3 & A4 & A5 & A6 & A7). exists s1, L1. repeat (split; [done|]). done. }
          destruct (Rlt_dec _ _) as [Hd|Hd].
          2:{ destruct SAME as (s1 & L1 & A1 & A2 & A3 & A4 & A5 & A6 & A7). exists s1, L1. repeat (split; [done|]). done. }
          assert (Hi : is_core i) by (exists this; done). destruct (Hnb i Hi) as (_ & N1 & _). destruct (N1 j P3) as (o & Ho1 & Ho2 & Ho3).
          assert (molOf j = o) as Eo by (by apply HmolOf). rewrite Eo.
          assert (HT : T this o) by (split; [done|]; split; [done|]; exists i, j; done).
          destruct (x_good _ _ _ _ _ _ _ HX o Ho1) as (l & Hl & _). cbn [fst] in Hl. unfold aget. rewrite Hl. cbn [obind].
          assert (Hmk : mark links o = Some (lCl l)) by (unfold mark; by rewrite Hl).
          destruct (decide (lCl l = -1)%Z) as [E1|E1].
          - destruct (add_ok mols T links0 k m0 links c st L o B HX Ho1) as (c' & links' & -> & HX'); [|by rewrite Hmk, E1|].
            { etransitivity; [apply (x_conn _ _ _ _ _ _ _ HX this); by apply HL|]. by apply rtc_once. }
            cbn [obind]. eexists _, _. split; [done|]. split; [exact HX'|]. cbn [snd length]. split; [intros m Hm; by right|]. split; [intros m Hm; by right|].
            split; [intros m [->|Hm]%elem_of_cons; [right; left|by left]|]. split; [lia|]. intros _ _. left.
          - destruct (no_clash mols T T_sym T_in links0 k m0 _ L this o (lCl l) B HX ltac:(by apply HL) HT Hmk E1) as [E2 HoL].
            assert (cId c = Z.of_nat k) as E3 by apply (x_rep _ _ _ _ _ _ _ HX). rewrite decide_True by congruence.
            destruct SAME as (s1 & L1 & A1 & A2 & A3 & A4 & A5 & A6 & A7). exists s1, L1. repeat (split; [done|]). intros _ _. by rewrite A7. }
        destruct STEP as (s1 & L1 & -> & HX1 & S1 & S2 & S3 & S4 & S5). cbn [obind].
        destruct (IH s1 L1 HX1 ltac:(by etransitivity) ltac:(intros p Hp; apply Hps; by right)) as (s' & L' & -> & HX' & T1 & T2 & T3 & T4 & T5).
        exists s', L'. split; [done|]. split; [done|]. split; [by etransitivity|]. split; [intros m Hm; by apply T2, S2|].
        split; [intros m Hm; apply T3 in Hm as [Hm|Hm]; [apply S3 in Hm as [Hm|Hm]; [by left|right; by apply T2]|by right]|].
        split; [lia|]. intros p [->|Hp]%elem_of_cons; cbn [fst snd]; [intros A1 A2; by apply T1, S5|by apply T5].
    Qed.

    Definition closed_but (L st : list nat) : Prop := forall m o, m ∈ L -> m ∉ st -> T m o -> o ∈ L.

    Lemma process_ok links c t st L : X (links, c, t :: st) L -> closed_but L (t :: st) ->
      exists s' L', process M toGen dist2 cutoff atomsOf core molOf pos cells (links, c, t :: st) = Ok s' /\ X s' L' /\ closed_but L' s'.2 /\
        (length s'.2 + length L = length L' + length st)%nat.
    Proof using Hnb HmolOf Hsym B.
      intros HX HC. assert (HtL : t ∈ L) by (apply (x_sub _ _ _ _ _ _ _ HX); left). assert (Htm : t ∈ mols) by (by eapply x_in).
      destruct (x_good _ _ _ _ _ _ _ HX t Htm) as (l & Hl & Hlm). cbn [fst] in Hl.
      destruct (x_rep _ _ _ _ _ _ _ HX) as (R1 & R2 & R3 & R4 & R5). cbn [fst snd] in *.
      assert (lCl l = cId c) as Hlc. { apply R5 in HtL as [_ E]. unfold mark in E. rewrite Hl in E. injection E as ->. done. }
      rewrite (process_flat links c st t l t Hl Hlm Hlc Htm).
      assert (HX0 : X (links, c, st) L).
      { destruct HX as [A1 A2 A3 A4 A5 A6 A7 A8 A9]. cbn [fst snd] in *. split; cbn [fst snd]; try done; [by apply NoDup_cons in A7 as [_ ?]|]. intros m Hm. apply A8. by right. }
      destruct (visits_ok t L HtL Htm (pairs_of_mol t) _ L HX0 ltac:(done) ltac:(done)) as (s' & L' & -> & HX' & S1 & S2 & S3 & S4 & S5).
      exists s', L'. split; [done|]. split; [done|]. split; [|done]. intros m o Hm Hst HT. destruct (decide (m = t)) as [->|Hne].
      - destruct HT as (_ & Ho & a & b & A1 & A2 & A3 & A4 & A5). destruct (decide (o = t)) as [->|Hot]; [by apply S1|].
        assert (molOf b = o) as Eb by (by apply HmolOf). rewrite <- Eb.
        apply (S5 (a, b)); cbn [fst snd]; [|congruence|done]. apply in_pairs. split; [done|]. split; [done|].
        apply (Hnb a); [by exists t|by exists o|done].
      - apply S1. apply S3 in Hm as [Hm|Hm]; [|done]. apply (HC m o); [done| |done]. intros [->|H]%elem_of_cons; [done|]. apply Hst. apply S2. done.
    Qed.

    Lemma work_ok : forall fuel links c st L, X (links, c, st) L -> closed_but L st -> (length mols + length st < fuel + length L)%nat ->
      exists links' c' L', work M toGen dist2 cutoff atomsOf core molOf fuel pos cells (links, c, st) = Ok (links', c') /\ X (links', c', []) L' /\ closed_but L' [].
    Proof using Hnb HmolOf Hsym B.
      induction fuel as [|fuel IH]; intros links c st L HX HC Hf.
      - pose proof (x_length _ _ _ _ _ _ _ HX). lia.
      - cbn [work]. destruct st as [|t st]; [by exists links, c, L|].
        destruct (process_ok links c t st L HX HC) as ([[links1 c1] st1] & L1 & -> & HX1 & HC1 & HL). cbn [obind snd length] in *.
        apply (IH links1 c1 st1 L1 HX1 HC1). lia.
    Qed.
  End Step.

  (** ** The loop over molecules *)
  Record grown (n0 : nat) (links : list clink) (cs : list cluster) : Prop := {
    g_len : length links = n0;
    g_good : good mols links;
    g_reps : forall k c, cs !! k = Some c -> exists L, rep mols links c k L /\ L <> [];
    g_mark : forall m, m ∈ mols -> mark links m = Some (-1)%Z \/ exists j, (j < length cs)%nat /\ mark links m = Some (Z.of_nat j);
    g_same : forall m1 m2 z, m1 ∈ mols -> m2 ∈ mols -> (0 <= z)%Z -> mark links m1 = Some z -> (mark links m2 = Some z <-> conn m1 m2);
    g_count : exists P, NoDup P /\ (forall m, m ∈ P <-> m ∈ mols /\ mark links m <> Some (-1)%Z) /\ fold_left (fun n c => n + cSize c)%Z cs 0%Z = Z.of_nat (length P)
  }.
  Lemma grown_base n0 links cs : grown n0 links cs -> base mols T links (length cs).
  Proof using Type.
    intros [G1 G2 G3 G4 G5 G6]. split; [done|done|]. intros m o z Hz HT Hm. destruct (T_in _ _ HT). apply (G5 m o z); try done. by apply rtc_once.
  Qed.
  Lemma mols_length links : good mols links -> (length mols <= length links)%nat.
  Proof using Hnd.
    intros G. replace (length links) with (length (seq 0 (length links))) by apply seq_length. apply submseteq_length, NoDup_submseteq; [done|].
    intros m Hm. apply elem_of_seq. destruct (G m Hm) as (l & Hl & _). apply lookup_lt_Some in Hl. lia.
  Qed.
  Lemma grow_ok n0 links cs m : grown n0 links cs -> m ∈ mols ->
    exists links' cs', grow M toGen dist2 cutoff atomsOf core molOf pos cells (links, cs, []) m = Ok (links', cs', []) /\ grown n0 links' cs' /\
      mark links' m <> Some (-1)%Z /\ forall o, mark links o <> Some (-1)%Z -> mark links' o <> Some (-1)%Z.
  Proof using Hnd Hnb HmolOf Hsym.
    intros G Hm. pose proof (grown_base _ _ _ G) as B. unfold grow. destruct (g_good _ _ _ G m Hm) as (l & Hl & Hlm). unfold aget at 1. rewrite Hl. cbn [obind].
    assert (Hmk : mark links m = Some (lCl l)) by (unfold mark; by rewrite Hl).
    destruct (decide (lCl l = -1)%Z) as [E|E].
    2:{ exists links, cs. split; [done|]. split; [done|]. split; [rewrite Hmk; congruence|done]. }
    unfold clu_clear. cbn [clear_loop clu_new cHead obind]. unfold clu_setId. rewrite bool_decide_true by lia. cbn [check obind setid_loop cHead cSize].
    set (k := length cs) in *.
    (* the first link *)
    assert (ADD : exists links1 c1, clu_addLink (Clu (Z.of_nat k) 0 None) m links = Ok (c1, links1) /\ expn mols T links k m (links1, c1, [m]) [m]).
    { unfold clu_addLink, aget. rewrite Hl. cbn [obind]. assert (m < length links)%nat as Hlt by (by eapply lookup_lt_Some). unfold aset. rewrite decide_True by done. cbn [obind].
      eexists _, _. split; [done|]. set (links' := <[m := _]> links).
      assert (E1 : links' !! m = Some (CLk (lMol l) None (Z.of_nat k))) by (by apply list_lookup_insert).
      assert (E2 : forall i, i <> m -> links' !! i = links !! i) by (intros i Hi; unfold links'; by rewrite list_lookup_insert_ne).
      split; cbn [fst snd].
      - split; [done|]. cbn [cHead cSize cId]. split; [|split; [|split]].
        + econstructor; [exact E1|]. constructor.
        + apply NoDup_singleton.
        + cbn [length]. lia.
        + intros o. rewrite elem_of_list_singleton. unfold mark. split.
          * intros ->. rewrite E1. done.
          * intros [Ho Hz]. destruct (decide (o = m)) as [|Hne]; [done|]. exfalso. rewrite E2 in Hz by done.
            destruct (g_mark _ _ _ G o Ho) as [A|(j & Hj & A)]; unfold mark in A; rewrite Hz in A; injection A; lia.
      - unfold links'. by rewrite insert_length.
      - intros i Hi. apply E2. intros ->. apply Hi. left.
      - intros o Ho. destruct (decide (o = m)) as [->|Hne]; [rewrite E1; eexists; split; [done|]; done|]. rewrite E2 by done. by apply (g_good _ _ _ G).
      - intros o ->%elem_of_list_singleton. by rewrite Hmk, E.
      - intros o ->%elem_of_list_singleton. constructor.
      - apply NoDup_singleton.
      - done.
      - left. }
    destruct ADD as (links1 & c1 & EA & HX1). assert (EL : length links1 = length links) by apply (x_len _ _ _ _ _ _ _ HX1). 
    unfold clu_new. cbn [cHead cSize obind]. rewrite EA. cbn [obind].
    destruct (work_ok links k m B (S (length links)) links1 c1 [m] [m] HX1) as (links' & c' & L & -> & HX & HC).
    { intros x o Hx Hnx. by destruct (Hnx Hx). }
    { pose proof (mols_length _ (g_good _ _ _ G)). cbn [length]. lia. }
    cbn [obind]. exists links', (cs ++ [c']). split; [done|].
    destruct (x_rep _ _ _ _ _ _ _ HX) as (R1 & R2 & R3 & R4 & R5). cbn [fst snd] in *.
    assert (SM : forall o, o ∉ L -> mark links' o = mark links o) by (intros o Ho; exact (f_equal (fmap lCl) (x_same _ _ _ _ _ _ _ HX o Ho))).
    assert (ML : forall o, o ∈ L -> mark links' o = Some (Z.of_nat k)) by (intros o Ho; by apply R5).
    assert (CL : forall o, o ∈ L <-> conn m o).
    { intros o. split; [apply (x_conn _ _ _ _ _ _ _ HX)|]. intros Hc.
      assert (H : forall x y, conn x y -> x ∈ L -> y ∈ L).
      { intros x y HH. induction HH as [|x y z H1 H2 IH]; [done|]. intros Hx. apply IH. apply (HC x y Hx); [apply not_elem_of_nil|done]. }
      apply (H m o Hc). apply (x_root _ _ _ _ _ _ _ HX). }
    split; [|split].
    - split.
      + etransitivity; [exact (x_len _ _ _ _ _ _ _ HX)|apply (g_len _ _ _ G)].
      + apply (x_good _ _ _ _ _ _ _ HX).
      + intros j c Hj. apply lookup_app_Some in Hj as [Hj|[Hj1 Hj2]].
        * destruct (g_reps _ _ _ G j c Hj) as (L' & (Q1 & Q2 & Q3 & Q4 & Q5) & Hne). exists L'. split; [|done].
          assert (Hdis : forall o, o ∈ L' -> o ∉ L).
          { intros o Ho HoL. apply Q5 in Ho as [_ Ho]. rewrite (x_old _ _ _ _ _ _ _ HX o HoL) in Ho. injection Ho. lia. }
          split; [done|]. split; [|split; [done|split; [done|]]].
          -- eapply linked_ext; [exact Q2|]. intros o Ho. apply (x_same _ _ _ _ _ _ _ HX). by apply Hdis.
          -- intros o. rewrite Q5. destruct (decide (o ∈ L)) as [Ho|Ho]; [|by rewrite SM].
             rewrite ML by done. rewrite (x_old _ _ _ _ _ _ _ HX o Ho). apply lookup_lt_Some in Hj. split; intros [? Hz]; injection Hz; lia.
        * assert (j - length cs = 0)%nat as E0 by (apply lookup_lt_Some in Hj2; cbn in Hj2; lia). rewrite E0 in Hj2. injection Hj2 as <-.
          assert (j = k) as -> by (unfold k; lia). exists L. split; [done|]. intros ->. by apply (not_elem_of_nil m), (x_root _ _ _ _ _ _ _ HX).
      + intros o Ho. rewrite app_length. cbn [length]. destruct (decide (o ∈ L)) as [HoL|HoL].
        * right. exists k. split; [unfold k; lia|]. by apply ML.
        * rewrite SM by done. destruct (g_mark _ _ _ G o Ho) as [A|(j & Hj & A)]; [by left|right; exists j; split; [lia|done]].
      + intros m1 m2 z H1 H2 Hz HA. destruct (decide (m1 ∈ L)) as [L1|L1].
        * rewrite ML in HA by done. injection HA as <-. split.
          -- intros HB. assert (m2 ∈ L) as L2 by (by apply R5). apply CL in L1. apply CL in L2. etransitivity; [apply (conn_sym T T_sym); exact L1|done].
          -- intros Hc. apply ML, CL. etransitivity; [by apply CL|done].
        * rewrite SM in HA by done. destruct (decide (m2 ∈ L)) as [L2|L2].
          -- rewrite ML by done. split.
             ++ intros [= <-]. destruct (g_mark _ _ _ G m1 H1) as [A|(j & Hj & A)]; rewrite HA in A; injection A; unfold k in *; lia.
             ++ intros Hc. exfalso. apply L1, CL. apply CL in L2. etransitivity; [exact L2|]. by apply (conn_sym T T_sym).
          -- rewrite SM by done. by apply (g_same _ _ _ G).
      + destruct (g_count _ _ _ G) as (P & P1 & P2 & P3). exists (L ++ P).
        assert (Hdis : forall o, o ∈ L -> o ∉ P).
        { intros o Ho HP. apply P2 in HP as [_ HP]. by apply HP, (x_old _ _ _ _ _ _ _ HX). }
        split; [by apply NoDup_app|]. split.
        * intros o. rewrite elem_of_app, P2. destruct (decide (o ∈ L)) as [Ho|Ho].
          -- rewrite ML by done. split; [|by left]. intros _. split; [by eapply x_in|]. intros [=]. lia.
          -- rewrite SM by done. tauto.
        * rewrite fold_left_app. cbn [fold_left]. rewrite P3, R4, app_length. lia.
    - rewrite ML by apply (x_root _ _ _ _ _ _ _ HX). intros [=]. lia.
    - intros o Ho. destruct (decide (o ∈ L)) as [HoL|HoL]; [rewrite ML by done; intros [=]; lia|by rewrite SM].
  Qed.
  Lemma grows_ok n0 : forall l links cs, (forall m, m ∈ l -> m ∈ mols) -> grown n0 links cs ->
    exists links' cs', foldM (grow M toGen dist2 cutoff atomsOf core molOf pos cells) (links, cs, []) l = Ok (links', cs', []) /\ grown n0 links' cs' /\
      (forall m, m ∈ l -> mark links' m <> Some (-1)%Z) /\ forall o, mark links o <> Some (-1)%Z -> mark links' o <> Some (-1)%Z.
  Proof using Hnd Hnb HmolOf Hsym.
    induction l as [|m l IH]; intros links cs Hl G; cbn [foldM].
    - exists links, cs. split; [done|]. split; [done|]. split; [by intros m ?%elem_of_nil|done].
    - destruct (grow_ok n0 links cs m G ltac:(apply Hl; left)) as (l1 & c1 & -> & G1 & M1 & K1). cbn [obind].
      destruct (IH l1 c1 ltac:(intros x Hx; apply Hl; by right) G1) as (l2 & c2 & -> & G2 & M2 & K2).
      exists l2, c2. split; [done|]. split; [done|]. split; [intros x [->|Hx]%elem_of_cons; [by apply K2|by apply M2]|]. intros o Ho. by apply K2, K1.
  Qed.

  (** ** isValid *)
  Lemma valid_ok n0 links cs : grown n0 links cs -> (forall m, m ∈ mols -> mark links m <> Some (-1)%Z) -> ci_isValid mols links cs = Ok ().
  Proof using Hnd.
    intros G Hall. unfold ci_isValid.
    assert (E : forall l n, (forall c, c ∈ l -> exists k, cs !! k = Some c) ->
      foldM (fun n c => let? v := clu_isValid (S (length links)) links c in let? _ := check v in Ok (n + cSize c)%Z) n l = Ok (fold_left (fun n c => n + cSize c)%Z l n)).
    { induction l as [|c l IH]; intros n Hl; cbn [foldM fold_left]; [done|]. destruct (Hl c ltac:(left)) as (k & Hk).
      destruct (g_reps _ _ _ G k c Hk) as (L & (Q1 & Q2 & Q3 & Q4 & Q5) & Hne).
      assert (HLl : (length L <= length mols)%nat) by (apply submseteq_length, NoDup_submseteq; [done|]; intros m Hm; by apply Q5).
      pose proof (mols_length _ (g_good _ _ _ G)).
      unfold clu_isValid. rewrite Q1. rewrite (valid_loop_ok links (Z.of_nat k) L); [|done|intros m Hm; by apply Q5|lia]. cbn [obind].
      rewrite bool_decide_true by (rewrite Q4; lia). cbn [check obind]. apply IH. intros c' Hc'. apply Hl. by right. }
    rewrite E; [|intros c Hc; by apply elem_of_list_lookup in Hc]. cbn [obind].
    destruct (g_count _ _ _ G) as (P & P1 & P2 & P3). rewrite P3. assert (P ≡ₚ mols) as HP.
    { apply NoDup_Permutation; [done|done|]. intros m. rewrite P2. split; [by intros []|]. intros Hm. split; [done|by apply Hall]. }
    pose proof (Permutation_length HP) as HPl. rewrite HPl. rewrite bool_decide_true by done. cbn [check obind].
    assert (F : forall l, (forall m, m ∈ l -> m ∈ mols) -> forM l (fun m => let? l := aget links m in let? _ := check (bool_decide (lMol l = Some m)) in check (bool_decide (lCl l <> -1)%Z)) = Ok ()).
    { induction l as [|m l IH]; intros Hl; cbn [forM]; [done|]. destruct (g_good _ _ _ G m ltac:(apply Hl; left)) as (x & Hx & Hxm).
      unfold aget at 1. rewrite Hx. cbn [obind]. rewrite bool_decide_true by done. cbn [check obind].
      rewrite bool_decide_true; [cbn [obind]; apply IH; intros y Hy; apply Hl; by right|].
      intros Hz. apply (Hall m); [apply Hl; left|]. unfold mark. rewrite Hx. cbn. by rewrite Hz. }
    by apply F.
  Qed.
End Run.

(** ** Filling links and cells *)
Section Fill.
  Context (M : nat) (toGen wrap : vec3 R -> vec3 R) (atomsOf : nat -> list nat) (core : nat -> bool).
  Definition cores (ms : list nat) : list nat := flat_map (fun m => List.filter core (atomsOf m)) ms.
  Lemma cores_in ms a : a ∈ cores ms <-> exists m, m ∈ ms /\ a ∈ atomsOf m /\ core a = true.
  Proof.
    unfold cores. rewrite elem_of_list_In, in_flat_map. split.
    - intros (m & H1 & H2). apply filter_In in H2 as [H2 H3]. exists m. by rewrite !elem_of_list_In.
    - intros (m & H1 & H2 & H3). exists m. rewrite <- elem_of_list_In. split; [done|]. apply filter_In. by rewrite <- elem_of_list_In.
  Qed.
  Lemma inner_eq : forall l s, foldM (fun s a => if core a then mc_enter M toGen wrap s a else Ok s) s l = foldM (mc_enter M toGen wrap) s (List.filter core l).
  Proof.
    induction l as [|a l IH]; intros s; cbn [foldM List.filter]; [done|]. destruct (core a); cbn [foldM obind]; [|by apply IH].
    destruct (mc_enter _ _ _ s a); cbn [obind]; auto.
  Qed.
  Lemma fill_ok : forall ms links s s', (forall m, m ∈ ms -> m < length links) -> (forall i l, links !! i = Some l -> lCl l = (-1)%Z) ->
    foldM (mc_enter M toGen wrap) s (cores ms) = Ok s' ->
    exists links', foldM (enter_mol M toGen wrap atomsOf core) (links, s) ms = Ok (links', s') /\ length links' = length links /\
      (forall i l, links' !! i = Some l -> lCl l = (-1)%Z) /\ (forall i, i ∈ ms -> lMol <$> links' !! i = Some (Some i)) /\
      (forall i, lMol <$> links !! i = Some (Some i) -> lMol <$> links' !! i = Some (Some i)).
  Proof.
    induction ms as [|m ms IH]; intros links s s' Hlt Hcl H; cbn [cores flat_map foldM] in *.
    - injection H as <-. exists links. split; [done|]. split; [done|]. split; [done|]. split; [by intros i ?%elem_of_nil|done].
    - rewrite foldM_app in H. apply obind_Ok in H as (s1 & H1 & H2).
      assert (m < length links) as Hm by (apply Hlt; left). destruct (lookup_lt_is_Some_2 links m Hm) as (l & Hl).
      unfold enter_mol at 1, aget. rewrite Hl. cbn [obind]. unfold aset. rewrite decide_True by done. cbn [obind].
      rewrite inner_eq, H1. cbn [obind].
      destruct (IH (<[m := link_set l m]> links) s1 s') as (links' & -> & E1 & E2 & E3 & E4).
      + intros x Hx. rewrite insert_length. apply Hlt. by right.
      + intros i x Hi. destruct (decide (i = m)) as [->|Hne].
        * rewrite list_lookup_insert in Hi by done. injection Hi as <-. cbn. by apply (Hcl m).
        * rewrite list_lookup_insert_ne in Hi by done. by apply (Hcl i).
      + done.
      + exists links'. split; [done|]. rewrite insert_length in E1. split; [done|]. split; [done|].
        assert (K : forall i, lMol <$> links !! i = Some (Some i) \/ i = m -> lMol <$> links' !! i = Some (Some i)).
        { intros i Hi. apply E4. destruct (decide (i = m)) as [->|Hne]; [by rewrite list_lookup_insert|].
          rewrite list_lookup_insert_ne by done. by destruct Hi. }
        split; [|intros i Hi; apply K; by left]. intros i [->|Hi]%elem_of_cons; [apply K; by right|by apply E3].
  Qed.
End Fill.
Lemma grown_start dist2 cutoff mols atomsOf core pos links : (forall i l, links !! i = Some l -> lCl l = (-1)%Z) ->
  (forall i, i ∈ mols -> lMol <$> links !! i = Some (Some i)) -> grown dist2 cutoff mols atomsOf core pos (length links) links [].
Proof.
  intros H1 H2. assert (K : forall m, m ∈ mols -> exists l, links !! m = Some l /\ lMol l = Some m).
  { intros m Hm. specialize (H2 m Hm). destruct (links !! m) as [l|]; [|done]. exists l. split; [done|]. by injection H2. }
  assert (Km : forall m, m ∈ mols -> mark links m = Some (-1)%Z).
  { intros m Hm. destruct (K m Hm) as (l & Hl & _). unfold mark. rewrite Hl. cbn. f_equal. by apply (H1 m). }
  split; [done|exact K|by intros k c|intros m Hm; left; by apply Km| |].
  - intros m1 m2 z Hm1 _ Hz Hk. rewrite Km in Hk by done. injection Hk. lia.
  - exists []. split; [constructor|]. split; [|done]. intros m. split; [by intros ?%elem_of_nil|]. intros [Hm Hk]. by destruct (Hk (Km m Hm)).
Qed.
Lemma grown_spec dist2 cutoff mols atomsOf core pos n0 links cs : grown dist2 cutoff mols atomsOf core pos n0 links cs ->
  (forall m, m ∈ mols -> mark links m <> Some (-1)%Z) ->
  clusters_are (connected dist2 cutoff mols atomsOf core pos) mols links cs.
Proof.
  intros G Hall.
  assert (MK : forall m z, mark links m = Some z <-> exists l, links !! m = Some l /\ lCl l = z).
  { intros m z. unfold mark. destruct (links !! m) as [l|]; cbn; split.
    - intros [= <-]. by exists l.
    - intros (l' & [= <-] & <-). done.
    - done.
    - by intros (? & ? & _). }
  split; [|split].
  - intros k c Hk. destruct (g_reps _ _ _ _ _ _ _ _ _ G k c Hk) as (L & (Q1 & Q2 & Q3 & Q4 & Q5) & Hne). split; [done|]. exists L.
    split_and!; [done|done|done|done|]. intros m. rewrite Q5, MK. done.
  - intros m Hm. destruct (g_good _ _ _ _ _ _ _ _ _ G m Hm) as (l & Hl & Hlm). destruct (g_mark _ _ _ _ _ _ _ _ _ G m Hm) as [A|(j & Hj & A)]; [by destruct (Hall m Hm A)|].
    exists l, j. apply MK in A as (l' & Hl' & A). rewrite Hl in Hl'. injection Hl' as <-. done.
  - intros m1 m2 l1 l2 H1 H2 E1 E2. destruct (g_mark _ _ _ _ _ _ _ _ _ G m1 H1) as [A|(j & Hj & A)]; [by destruct (Hall m1 H1 A)|].
    unfold connected. rewrite <- (g_same _ _ _ _ _ _ _ _ _ G m1 m2 (Z.of_nat j) H1 H2 ltac:(lia) A). unfold mark in *. rewrite E1 in A. rewrite E2. cbn in *. injection A as A.
    rewrite A. split; [by intros <-|by intros [= ->]].
Qed.
