(** The loops over species that initialise groups. *)
From Verif Require Import Base SpeciesModel SpeciesSpec SpeciesProofs SimModel SimSpec SimProofs SimGroups.

Section Kind.
Context (sps : list species) (sel : species -> gtab) (mask : bool) (k : nat).
Let F := flat 0 sps.
Let per := fun s => gtN (sel s).
Context (Hsel : forall x, x ∈ F -> length (gtGroups (sel (fsp x))) = Z.to_nat (gtN (sel (fsp x)))).
Context (mols : list mol) (Hmols : mols_are sps (length F) mols).
Context (A : nat -> nat -> list atm -> Prop).
Context (HA : forall n xx B g atoms, F !! n = Some xx -> gtGroups (sel (fsp xx)) !! B = Some g -> A n B atoms ->
  exists atoms', (if mask then
     match map (fun a => (Z.of_nat (off spNAtom F n) + a)%Z) (sgAtoms g) with
     | [a0; a1] => mask_pair atoms a0 a1 | _ => UB end else Ok atoms) = Ok atoms' /\ A n (S B) atoms').
Context (HA' : forall n xx atoms, F !! n = Some xx -> A n (length (gtGroups (sel (fsp xx)))) atoms -> A (S n) 0 atoms).

Definition gm_are (n : nat) (gm : list (nat * nat)) : Prop :=
  length gm = length F /\
  forall p x, F !! p = Some x -> p < n -> gm !! p = Some (off per F p, Z.to_nat (per (fsp x))).
Definition arr_are (n : nat) (arr : list grp) : Prop :=
  length arr = Nat.max 1 (capacity per sps) /\
  forall p x b g, F !! p = Some x -> p < n -> gtGroups (sel (fsp x)) !! b = Some g ->
    arr !! (off per F p + b) =
      Some (Grp (map (fun a => (Z.of_nat (off spNAtom F p) + a)%Z) (sgAtoms g)) (sgType g)).
Definition gstate_ok (n : nat) (gs : groups) (atoms : list atm) : Prop :=
  gm_are n (gsMol gs) /\ arr_are n (gsArr gs) /\ A n 0 atoms.

Lemma off_per_le n : off per F n <= capacity per sps.
Proof.
  unfold F. rewrite <- (off_all per 0 sps). destruct (decide (n <= length (flat 0 sps))) as [H|H].
  - by apply off_mono.
  - unfold off. rewrite !take_ge by lia. lia.
Qed.

Lemma init_mol_groups n x arr atoms : F !! n = Some x -> arr_are n arr -> A n 0 atoms ->
  exists arr' atoms', foldM (fun '(arr, atoms, gp) b =>
          let? (arr, atoms) := init_group mask (sel (fsp x)) (off spNAtom F n) arr atoms gp b in
          Ok (arr, atoms, S gp)) (arr, atoms, off per F n) (seq 0 (Z.to_nat (gtN (sel (fsp x)))))
    = Ok (arr', atoms', off per F (S n)) /\ arr_are (S n) arr' /\ A (S n) 0 atoms'.
Proof.
  intros Hx [Hl Harr] HA0. pose proof (off_per_le (S n)) as Htot. rewrite (off_S _ _ _ _ Hx) in *.
  set (q0 := off per F n) in *. set (N := Z.to_nat (gtN (sel (fsp x)))).
  assert (HL : length (gtGroups (sel (fsp x))) = N) by (apply Hsel; by eapply elem_of_list_lookup_2).
  change (Z.to_nat (per (fsp x))) with N in *.
  pose (I := fun (j : nat) (s : list grp * list atm * nat) => s.2 = q0 + j /\ length s.1.1 = length arr /\ A n j s.1.2 /\
     (forall y, y < q0 \/ q0 + j <= y -> s.1.1 !! y = arr !! y) /\
     (forall b g, b < j -> gtGroups (sel (fsp x)) !! b = Some g ->
        s.1.1 !! (q0 + b) = Some (Grp (map (fun a => (Z.of_nat (off spNAtom F n) + a)%Z) (sgAtoms g)) (sgType g)))).
  edestruct (foldM_total (fun '(arr, atoms, gp) b =>
          let? (arr, atoms) := init_group mask (sel (fsp x)) (off spNAtom F n) arr atoms gp b in
          Ok (arr, atoms, S gp)) I (seq 0 N) (arr, atoms, q0)) as ([[arr' atoms'] q'] & Hf & Hq & Hl' & HA1 & Ho & Hn).
  - unfold I. cbn [fst snd]. split; [lia|]. split; [done|]. split; [done|]. split; [done|]. intros; lia.
  - intros j [[arr1 at1] q1] i Hi (Hq & Hl1 & HAj & Ho & Hn). cbn [fst snd] in *.
    apply lookup_seq in Hi as [-> Hj]. cbn [plus].
    destruct (lookup_lt_is_Some_2 (gtGroups (sel (fsp x))) j) as [g Hg]; [lia|].
    unfold init_group. rewrite (aget_Ok' _ _ _ Hg). cbn [obind]. rewrite aset_Ok' by lia. cbn [obind].
    destruct (HA n x j g at1 Hx Hg HAj) as (at2 & E2 & HA2). rewrite E2. cbn [obind].
    eexists. split; [reflexivity|]. unfold I. cbn [fst snd]. rewrite insert_length.
    split; [lia|]. split; [done|]. split; [done|]. split.
    + intros y Hy. rewrite list_lookup_insert_ne by lia. apply Ho. lia.
    + intros b g' Hlt Hg'. destruct (decide (b = j)) as [->|Hne].
      * subst q1. rewrite list_lookup_insert by lia. congruence.
      * rewrite list_lookup_insert_ne by lia. apply Hn; [lia|done].
  - rewrite seq_length in *. cbn [fst snd] in *. exists arr', atoms'. rewrite Hf. subst q'. split; [done|]. split; [split|].
    + lia.
    + intros p y b g Hp Hlt Hg. destruct (decide (p = n)) as [->|Hne].
      * assert (y = x) as -> by congruence. apply lookup_lt_Some in Hg as Hgb. fold q0. apply Hn; [lia|done].
      * rewrite Ho; [apply (Harr p y b g); [done|lia|done]|].
        left. apply lookup_lt_Some in Hg. rewrite Hsel in Hg by (by eapply elem_of_list_lookup_2).
        pose proof (off_lt per F p y n Hp ltac:(lia)) as H. fold q0 in H. unfold per in H at 2. lia.
    + eapply HA'; [done|]. by rewrite HL.
Qed.

Lemma init_groups_Ok pre sp post gs atoms :
  sps = pre ++ sp :: post -> gstate_ok (capacity (fun _ => 1%Z) pre) gs atoms ->
  exists gs' atoms', init_groups mask mols sp (sel sp) (capacity (fun _ => 1%Z) pre) (capacity per pre) gs atoms = Ok (gs', atoms') /\
    gstate_ok (capacity (fun _ => 1%Z) (pre ++ [sp])) gs' atoms'.
Proof.
  intros Hs (Hgm & Harr & HA0). unfold init_groups. set (P := capacity (fun _ => 1%Z) pre) in *.
  pose (I := fun (m : nat) (s : list (nat * nat) * list grp * list atm * nat * nat) =>
     gstate_ok (P + m) (GS s.1.1.1.1 s.1.1.1.2) s.1.1.2 /\ s.1.2 = P + m /\ s.2 = off per F (P + m)).
  assert (HP : forall m, m < Z.to_nat (spCap sp) -> F !! (P + m) = Some (sp, length pre, m)).
  { intros m Hm. unfold F, P. rewrite Hs. rewrite flat_lookup by done. done. }
  assert (HF : length F = capacity (fun _ => 1%Z) sps) by apply flat_length.
  edestruct (foldM_total (fun '(gm, arr, atoms, p, gp) (m : nat) =>
      let? ml := aget mols p in
      let? gm := aset gm p (gp, Z.to_nat (gtN (sel sp))) in
      let? (arr, atoms, gp) :=
        foldM (fun '(arr, atoms, gp) b =>
          let? (arr, atoms) := init_group mask (sel sp) (moFirst ml) arr atoms gp b in
          Ok (arr, atoms, S gp)) (arr, atoms, gp) (seq 0 (Z.to_nat (gtN (sel sp)))) in
      Ok (gm, arr, atoms, S p, gp)) I (seq 0 (Z.to_nat (spCap sp))) (gsMol gs, gsArr gs, atoms, P, capacity per pre))
    as ([[[[gm arr] at'] p] q] & Hf & Hst' & _).
  - unfold I. cbn [fst snd]. rewrite Nat.add_0_r. split; [by destruct gs|]. split; [done|].
    unfold F, P. rewrite Hs. rewrite <- (Nat.add_0_r (capacity (fun _ => 1%Z) pre)), flat_off by lia. lia.
  - intros m [[[[gm arr] at1] p] q] i Hi (Hst1 & Hp & Hq). cbn [fst snd] in *. apply lookup_seq in Hi as [-> Hm]. cbn [plus].
    destruct Hst1 as ((Hml & Hmo) & Har & HAm). cbn [gsMol gsArr] in *. subst p q.
    assert (Hlt : P + m < length F) by (eapply lookup_lt_Some; by apply HP).
    destruct Hmols as [_ Hms]. rewrite (aget_Ok' _ _ _ (Hms _ _ (HP m Hm) Hlt)). cbn [obind moFirst].
    rewrite aset_Ok' by lia. cbn [obind].
    destruct (init_mol_groups (P + m) (sp, length pre, m) arr at1) as (arr' & atoms' & H1 & H2 & H3); [by apply HP|done|done|].
    change (fsp (sp, length pre, m)) with sp in H1. fold F. rewrite H1. cbn [obind]. eexists. split; [reflexivity|].
    unfold I. cbn [fst snd]. rewrite Nat.add_succ_r. split; [|done].
    split; [|done]. cbn [gsMol]. split; [by rewrite insert_length|].
    intros p x Hp Hlt'. destruct (decide (p = P + m)) as [->|Hne].
    + rewrite list_lookup_insert by lia. rewrite HP in Hp by done. injection Hp as <-. done.
    + rewrite list_lookup_insert_ne by done. apply Hmo; [done|lia].
  - rewrite seq_length in Hst'. cbn [fst snd] in *. exists (GS gm arr), at'. rewrite Hf. cbn [obind]. split; [done|].
    replace (capacity _ (pre ++ [sp])) with (P + Z.to_nat (spCap sp)); [done|].
    unfold P. rewrite !capacity_sum, sum_list_with_app. cbn. lia.
Qed.

Lemma all_groups_Ok pre post gs atoms :
  sps = pre ++ post -> gstate_ok (capacity (fun _ => 1%Z) pre) gs atoms ->
  exists gs' atoms', foldM (fun '(gs, atoms) '(sp, p, gp) => init_groups mask mols sp (sel sp) p gp gs atoms) (gs, atoms)
      (zip (zip post (first_ids (fun _ => 1%Z) (capacity (fun _ => 1%Z) pre) post)) (first_ids per (capacity per pre) post))
     = Ok (gs', atoms') /\ gstate_ok (length F) gs' atoms'.
Proof.
  revert pre gs atoms. induction post as [|sp post IH]; intros pre gs atoms Hs Hst.
  { exists gs, atoms. split; [done|]. unfold F. rewrite flat_length, Hs, app_nil_r. done. }
  cbn [first_ids zip zip_with foldM].
  destruct (init_groups_Ok pre sp post gs atoms Hs Hst) as (gs1 & at1 & H1 & H2). rewrite H1. cbn [obind].
  destruct (IH (pre ++ [sp]) gs1 at1) as (gs' & at' & H3 & H4).
  - rewrite Hs, <- app_assoc. done.
  - done.
  - exists gs', at'. split; [|done]. rewrite <- H3. f_equal.
    assert (HC : forall per, capacity per (pre ++ [sp]) = capacity per pre + Z.to_nat (spCap sp) * Z.to_nat (per sp)).
    { intros per'. rewrite !capacity_sum, sum_list_with_app. cbn. lia. }
    rewrite !HC. done.
Qed.

Lemma init_kind_Ok atoms : A 0 0 atoms ->
  exists gs' atoms', init_kind true mask k sel sps mols atoms = Ok (gs', atoms') /\ gstate_ok (length F) gs' atoms'.
Proof.
  intros H0. unfold init_kind. destruct Hmols as [Hml _].
  apply (all_groups_Ok [] sps); [done|]. split; [|split; [|done]].
  - split; cbn [gsMol]; [rewrite replicate_length, Hml; symmetry; apply flat_length|]. intros p x _ Hp. cbn in Hp. lia.
  - split; cbn [gsArr]; [by rewrite replicate_length|]. intros p x b g _ Hp. cbn in Hp. lia.
Qed.
End Kind.
