(** Lemmas about the initialisation of a simulation. *)
From Verif Require Import Base SpeciesModel SpeciesSpec SpeciesProofs SimModel SimSpec.

(** ** The flat list of molecules *)
Fixpoint flat (i : nat) (sps : list species) : list (species * nat * nat) :=
  match sps with
  | [] => []
  | sp :: r => map (fun m => (sp, i, m)) (seq 0 (Z.to_nat (spCap sp))) ++ flat (S i) r
  end.
Definition fsp (x : species * nat * nat) : species := x.1.1.
(** Objects of molecules before molecule [n]. *)
Definition off (per : species -> Z) (F : list (species * nat * nat)) (n : nat) : nat :=
  sum_list_with (fun x => Z.to_nat (per (fsp x))) (take n F).

Lemma flat_app i pre post : flat i (pre ++ post) = flat i pre ++ flat (i + length pre) post.
Proof.
  revert i. induction pre as [|sp pre IH]; intros i; cbn [flat app length]; [by rewrite Nat.add_0_r|].
  rewrite IH, <- app_assoc. do 3 f_equal. lia.
Qed.
Lemma capacity_sum per sps : capacity per sps = sum_list_with (fun s => Z.to_nat (spCap s) * Z.to_nat (per s)) sps.
Proof. induction sps as [|s sps IH]; cbn; [done|]. by rewrite IH. Qed.
Lemma flat_length i sps : length (flat i sps) = capacity (fun _ => 1%Z) sps.
Proof.
  revert i. induction sps as [|s sps IH]; intros i; cbn [flat capacity length]; [done|].
  rewrite app_length, map_length, seq_length, IH. lia.
Qed.
Lemma sum_const {A} (f : A -> nat) c (l : list A) : (forall x, x ∈ l -> f x = c) -> sum_list_with f l = length l * c.
Proof.
  induction l as [|x l IH]; intros H; cbn; [done|]. rewrite (H x) by left. rewrite IH; [done|].
  intros y Hy. apply H. by right.
Qed.
Lemma flat_sum per i sps : sum_list_with (fun x => Z.to_nat (per (fsp x))) (flat i sps) = capacity per sps.
Proof.
  revert i. induction sps as [|s sps IH]; intros i; cbn [flat capacity]; [done|].
  rewrite sum_list_with_app, IH. f_equal.
  rewrite (sum_const _ (Z.to_nat (per s))); [by rewrite map_length, seq_length|].
  intros x Hx. apply elem_of_list_fmap in Hx as (m & -> & _). done.
Qed.

Lemma off_S per F n x : F !! n = Some x -> off per F (S n) = off per F n + Z.to_nat (per (fsp x)).
Proof.
  intros H. unfold off. rewrite (take_S_r _ _ _ H), sum_list_with_app. cbn. lia.
Qed.
Lemma off_all per i sps : off per (flat i sps) (length (flat i sps)) = capacity per sps.
Proof. unfold off. rewrite firstn_all. apply flat_sum. Qed.
Lemma off_mono per F m n : m <= n -> off per F m <= off per F n.
Proof.
  intros H. unfold off. rewrite <- (take_drop m (take n F)), take_take, Nat.min_l by done.
  rewrite sum_list_with_app. lia.
Qed.
(** Blocks are disjoint and in order. *)
Lemma off_lt per F p x n : F !! p = Some x -> p < n -> off per F p + Z.to_nat (per (fsp x)) <= off per F n.
Proof. intros H Hn. rewrite <- (off_S _ _ _ _ H). apply off_mono. lia. Qed.
Lemma off_block per F n x : x < off per F n ->
  exists p y, F !! p = Some y /\ p < n /\ off per F p <= x < off per F p + Z.to_nat (per (fsp y)).
Proof.
  induction n as [|n IH]; intros H; [cbn in H; unfold off in H; rewrite take_0 in H; cbn in H; lia|].
  destruct (decide (x < off per F n)) as [Hl|Hl].
  - destruct (IH Hl) as (p & y & H1 & H2 & H3). exists p, y. split; [done|]. split; [lia|done].
  - destruct (F !! n) as [y|] eqn:E.
    + rewrite (off_S _ _ _ _ E) in H. exists n, y. split; [done|]. split; lia.
    + apply lookup_ge_None in E. unfold off in *. rewrite !take_ge in * by lia. lia.
Qed.

(** Molecule m of the species after [pre]. *)
Lemma flat_lookup i pre sp post m : m < Z.to_nat (spCap sp) ->
  flat i (pre ++ sp :: post) !! (capacity (fun _ => 1%Z) pre + m) = Some (sp, i + length pre, m).
Proof.
  intros Hm. rewrite flat_app. rewrite lookup_app_r by (rewrite flat_length; lia).
  rewrite flat_length. replace (_ + m - _) with m by lia. cbn [flat].
  rewrite lookup_app_l by (rewrite map_length, seq_length; done).
  rewrite list_lookup_fmap, lookup_seq_lt by done. done.
Qed.
Lemma flat_off per i pre sp post m : m <= Z.to_nat (spCap sp) ->
  off per (flat i (pre ++ sp :: post)) (capacity (fun _ => 1%Z) pre + m) = capacity per pre + m * Z.to_nat (per sp).
Proof.
  intros Hm. unfold off. rewrite flat_app.
  rewrite <- (flat_length i pre) at 1. rewrite take_add_app by done. rewrite sum_list_with_app, flat_sum. f_equal.
  cbn [flat]. rewrite take_app_le by (rewrite map_length, seq_length; done).
  rewrite (sum_const _ (Z.to_nat (per sp))).
  - rewrite take_length, map_length, seq_length. f_equal. lia.
  - intros x Hx. apply elem_of_take in Hx as (j & Hx & _). rewrite list_lookup_fmap in Hx.
    destruct (seq _ _ !! j); [|done]. by injection Hx as <-.
Qed.
Lemma flat_inv i sps p x : flat i sps !! p = Some x ->
  exists pre post, sps = pre ++ fsp x :: post /\ x.1.2 = i + length pre /\ x.2 < Z.to_nat (spCap (fsp x)) /\
    p = capacity (fun _ => 1%Z) pre + x.2.
Proof.
  revert i p. induction sps as [|sp sps IH]; intros i p H; cbn [flat] in H; [done|].
  apply lookup_app_Some in H as [H|[Hl H]].
  - rewrite list_lookup_fmap in H. destruct (seq _ _ !! p) as [m|] eqn:E; [|done].
    apply lookup_seq in E as [-> Hm]. injection H as <-. exists [], sps. cbn. split; [done|]. lia.
  - rewrite map_length, seq_length in *. apply IH in H as (pre & post & -> & H1 & H2 & H3).
    exists (sp :: pre), post. split; [done|]. cbn [length capacity]. split; [lia|]. split; [done|]. lia.
Qed.
Lemma capacity_before per pre post : capacity per pre = before per (pre ++ post) (length pre).
Proof. unfold before. rewrite take_app_alt by done. apply capacity_sum. Qed.

(** ** Loops *)
Lemma foldM_total {A S} (f : S -> A -> outcome S) (I : nat -> S -> Prop) (l : list A) s :
  I 0 s -> (forall n s x, l !! n = Some x -> I n s -> exists s', f s x = Ok s' /\ I (Datatypes.S n) s') ->
  exists s', foldM f s l = Ok s' /\ I (length l) s'.
Proof.
  revert s I. induction l as [|x l IH]; intros s I H0 Hs; [exists s; done|].
  destruct (Hs 0 s x) as (s1 & H1 & I1); [done|done|]. cbn [foldM length]. rewrite H1. cbn [obind].
  apply (IH s1 (fun n => I (Datatypes.S n))); [done|].
  intros n s2 y Hy. apply (Hs (Datatypes.S n) s2 y). done.
Qed.
Lemma ptr_upd_Ok {A} (l : list A) p f x : l !! p = Some x -> ptr_upd l p f = Ok (<[p := f x]> l).
Proof.
  intros H. unfold ptr_upd, aget. rewrite H. cbn [obind]. unfold aset. rewrite decide_True; [done|].
  by eapply lookup_lt_Some.
Qed.
Lemma aset_Ok' {A} (l : list A) i a : i < length l -> aset l i a = Ok (<[i := a]> l).
Proof. intros H. unfold aset. by rewrite decide_True. Qed.
Lemma aget_Ok' {A} (l : list A) i a : l !! i = Some a -> aget l i = Ok a.
Proof. intros H. unfold aget. by rewrite H. Qed.

(** ** Molecules and atoms *)
Section Init.
Context (sps : list species).
Let F := flat 0 sps.
Context (Hty : forall x, x ∈ F -> length (spTypes (fsp x)) = Z.to_nat (spNAtom (fsp x))).

(** Molecules before [n] and their atoms are set; [M] gives the masks. *)
Definition atoms_are (M : nat -> nat -> list nat) (n : nat) (atoms : list atm) : Prop :=
  length atoms = capacity spNAtom sps /\
  forall p x a t, F !! p = Some x -> p < n -> spTypes (fsp x) !! a = Some t ->
    atoms !! (off spNAtom F p + a) = Some (Atm p t (M p a)).
Definition mols_are (n : nat) (mols : list mol) : Prop :=
  length mols = capacity (fun _ => 1%Z) sps /\
  forall p x, F !! p = Some x -> p < n ->
    mols !! p = Some (Mol x.2 x.1.2 (Z.to_nat (spNAtom (fsp x))) (off spNAtom F p)).

Lemma off_total_le n : off spNAtom F n <= capacity spNAtom sps.
Proof.
  unfold F. rewrite <- (off_all spNAtom 0 sps). destruct (decide (n <= length (flat 0 sps))) as [H|H].
  - by apply off_mono.
  - unfold off. rewrite !take_ge by lia. lia.
Qed.

Lemma init_atoms_Ok n x atoms :
  F !! n = Some x -> atoms_are (fun _ _ => []) n atoms ->
  (forall y at', off spNAtom F n <= y -> atoms !! y = Some at' -> atMask at' = []) ->
  exists atoms', init_atoms (fsp x) n atoms (off spNAtom F n) = Ok (atoms', off spNAtom F (S n)) /\
    atoms_are (fun _ _ => []) (S n) atoms' /\
    (forall y at', off spNAtom F (S n) <= y -> atoms' !! y = Some at' -> atMask at' = []).
Proof.
  intros Hx [Hl Ha] Hm. unfold init_atoms.
  pose proof (off_total_le (S n)) as Htot. rewrite (off_S _ _ _ _ Hx) in *.
  assert (HL : length (spTypes (fsp x)) = Z.to_nat (spNAtom (fsp x))) by (apply Hty; by eapply elem_of_list_lookup_2).
  set (N := Z.to_nat (spNAtom (fsp x))) in *. set (q0 := off spNAtom F n) in *.
  pose (I := fun (j : nat) (s : list atm * nat) => snd s = q0 + j /\ length (fst s) = length atoms /\
     (forall y, y < q0 \/ q0 + j <= y -> fst s !! y = atoms !! y) /\
     (forall a t, a < j -> spTypes (fsp x) !! a = Some t -> fst s !! (q0 + a) = Some (Atm n t []))).
  edestruct (foldM_total (fun '(atoms, q) i =>
    let? t := aget (spTypes (fsp x)) i in
    let? atoms := ptr_upd atoms q (fun a => Atm n t (atMask a)) in
    Ok (atoms, S q)) I (seq 0 N) (atoms, q0)) as ([atoms' q'] & Hf & Hq & Hl' & Ho & Hn).
  - split; [cbn; lia|]. split; [done|]. split; [done|]. intros; lia.
  - intros j [at1 q1] i Hi (Hq & Hl1 & Ho & Hn). cbn [fst snd] in *.
    apply lookup_seq in Hi as [-> Hj]. cbn [plus].
    destruct (lookup_lt_is_Some_2 (spTypes (fsp x)) j) as [t Ht]; [lia|].
    rewrite (aget_Ok' _ _ _ Ht). cbn [obind].
    destruct (lookup_lt_is_Some_2 at1 q1) as [a1 Ha1]; [lia|].
    rewrite (ptr_upd_Ok _ _ _ _ Ha1). cbn [obind]. eexists. split; [reflexivity|].
    assert (Hmk : atMask a1 = []).
    { apply (Hm q1); [lia|]. rewrite <- (Ho q1) by lia. done. }
    rewrite Hmk. unfold I. cbn [fst snd]. rewrite insert_length. split; [lia|]. split; [done|]. split.
    + intros y Hy. rewrite list_lookup_insert_ne by lia. apply Ho. lia.
    + intros a t' Hlt Ht'. destruct (decide (a = j)) as [->|Hne].
      * subst q1. rewrite list_lookup_insert by lia. congruence.
      * rewrite list_lookup_insert_ne by lia. apply Hn; [lia|done].
  - rewrite seq_length in *. cbn [fst snd] in *. exists atoms'. rewrite Hf. subst q'. split; [done|]. split; [split|].
    + lia.
    + intros p y a t Hp Hlt Ht. destruct (decide (p = n)) as [->|Hne].
      * assert (y = x) as -> by congruence. apply lookup_lt_Some in Ht as Hat. rewrite HL in Hat. fold q0. by apply Hn.
      * rewrite Ho; [apply (Ha p y a t); [done|lia|done]|].
        left. apply lookup_lt_Some in Ht. rewrite Hty in Ht by (by eapply elem_of_list_lookup_2).
        pose proof (off_lt spNAtom F p y n Hp ltac:(lia)). fold q0 in H. lia.
    + intros y at' Hy Hat. apply (Hm y); [lia|]. rewrite <- Ho by lia. done.
Qed.

Definition mstate_ok (n : nat) (st : list mol * list atm) : Prop :=
  mols_are n st.1 /\ atoms_are (fun _ _ => []) n st.2 /\
  (forall y at', off spNAtom F n <= y -> st.2 !! y = Some at' -> atMask at' = []).

Lemma init_molecules_Ok pre sp post st :
  sps = pre ++ sp :: post -> mstate_ok (capacity (fun _ => 1%Z) pre) st ->
  exists st' p q, init_molecules (length pre) sp (capacity (fun _ => 1%Z) pre) (capacity spNAtom pre) st.1 st.2
    = Ok (st'.1, st'.2, p, q) /\ mstate_ok (capacity (fun _ => 1%Z) (pre ++ [sp])) st'.
Proof.
  intros Hs Hst. unfold init_molecules. set (P := capacity (fun _ => 1%Z) pre) in *.
  pose (I := fun (m : nat) (s : list mol * list atm * nat * nat) =>
     mstate_ok (P + m) (s.1.1.1, s.1.1.2) /\ s.1.2 = P + m /\ s.2 = off spNAtom F (P + m)).
  assert (HP : forall m, m < Z.to_nat (spCap sp) -> F !! (P + m) = Some (sp, length pre, m)).
  { intros m Hm. unfold F, P. rewrite Hs. rewrite flat_lookup by done. done. }
  assert (HF : length F = capacity (fun _ => 1%Z) sps) by apply flat_length.
  edestruct (foldM_total (fun '(mols, atoms, p, q) m =>
    let? mols := aset mols p (Mol m (length pre) (Z.to_nat (spNAtom sp)) q) in
    let? (atoms, q) := init_atoms sp p atoms q in
    Ok (mols, atoms, S p, q)) I (seq 0 (Z.to_nat (spCap sp))) (st.1, st.2, P, capacity spNAtom pre))
    as ([[[mols atoms] p] q] & Hf & Hst' & _).
  - unfold I. cbn [fst snd]. rewrite Nat.add_0_r. split; [by destruct st|]. split; [done|].
    unfold F, P. rewrite Hs. rewrite <- (Nat.add_0_r (capacity (fun _ => 1%Z) pre)), flat_off by lia. lia.
  - intros m [[[mols atoms] p] q] i Hi (Hst1 & Hp & Hq). cbn [fst snd] in *. apply lookup_seq in Hi as [-> Hm]. cbn [plus].
    destruct Hst1 as ((Hml & Hmo) & Hat & Hmk). cbn [fst snd] in *. subst p q.
    assert (Hlt : P + m < length F) by (eapply lookup_lt_Some; by apply HP).
    rewrite aset_Ok' by lia. cbn [obind].
    destruct (init_atoms_Ok (P + m) (sp, length pre, m) atoms) as (atoms' & H1 & H2 & H3); [by apply HP|done|done|].
    change (fsp (sp, length pre, m)) with sp in H1. rewrite H1. cbn [obind]. eexists. split; [reflexivity|].
    unfold I. cbn [fst snd]. rewrite Nat.add_succ_r. split; [|done].
    split; [|done]. cbn [fst snd]. split; [by rewrite insert_length|].
    intros p x Hp Hlt'. destruct (decide (p = P + m)) as [->|Hne].
    + rewrite list_lookup_insert by lia. rewrite HP in Hp by done. injection Hp as <-. done.
    + rewrite list_lookup_insert_ne by done. apply Hmo; [done|lia].
  - rewrite seq_length in Hst'. cbn [fst snd] in *. exists (mols, atoms), p, q. split; [done|].
    replace (capacity _ (pre ++ [sp])) with (P + Z.to_nat (spCap sp)); [done|].
    unfold P. rewrite !capacity_sum, sum_list_with_app. cbn. lia.
Qed.


Lemma all_molecules_Ok pre post st :
  sps = pre ++ post -> mstate_ok (capacity (fun _ => 1%Z) pre) st ->
  exists st', foldM (fun '(mols, atoms) '(sp, p, q, i) =>
        let? (mols, atoms, _, _) := init_molecules i sp p q mols atoms in Ok (mols, atoms)) st
      (zip (zip (zip post (first_ids (fun _ => 1%Z) (capacity (fun _ => 1%Z) pre) post))
                (first_ids spNAtom (capacity spNAtom pre) post)) (seq (length pre) (length post))) = Ok st' /\
    mstate_ok (capacity (fun _ => 1%Z) sps) st'.
Proof.
  revert pre st. induction post as [|sp post IH]; intros pre st Hs Hst.
  { exists st. split; [done|]. rewrite Hs, app_nil_r. done. }
  cbn [first_ids length seq zip zip_with foldM].
  destruct (init_molecules_Ok pre sp post st Hs Hst) as ([mols atoms] & p & q & H1 & H2).
  destruct st as [mols0 atoms0]. cbn [fst snd] in H1. rewrite H1. cbn [obind].
  destruct (IH (pre ++ [sp]) (mols, atoms)) as (st' & H3 & H4).
  - rewrite Hs, <- app_assoc. done.
  - done.
  - exists st'. split; [|done]. rewrite <- H3. f_equal.
    assert (HC : forall per, capacity per (pre ++ [sp]) = capacity per pre + Z.to_nat (spCap sp) * Z.to_nat (per sp)).
    { intros per. rewrite !capacity_sum, sum_list_with_app. cbn. lia. }
    rewrite !HC, app_length. cbn [length]. rewrite Nat.add_1_r. done.
Qed.
End Init.
