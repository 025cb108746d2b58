(** Properties C52, and parts of C13 and C53. *)
From Verif Require Import Base Containers AtomMapModel AtomMapSpec AtomMapProofs AtomStorageModel AtomStorageSpec AtomStorageProofs SpeciesModel SpeciesProofs PairListProps.
From stdpp Require Import gmap.
From Verif Require Import Vec3 BoxSpec OrthoModel OrthoSpec OrthoProofs OrthoProps MonoModel MonoSpec MonoProofs MonoProps CoordModel CoordSpec.
From Coq Require Import Reals Lra.
Local Open Scope R_scope.

Lemma transform_inverse t : a_transform t -> (forall r, tCart t (tGen t r) = r) /\ (forall g, tGen t (tCart t g) = g).
Proof.
  intros [(b & Hb & ->)|(b & Hb & ->)].
  - destruct (ortho_transforms_inverse b Hb) as (H1 & H2 & _). done.
  - destruct (mono_transforms_inverse b Hb) as (H1 & H2 & _). done.
Qed.
Lemma convert_get f l : forall p n, NoDup l -> convert f p l n = if decide (n ∈ l) then f (p n) else p n.
Proof.
  unfold convert. induction l as [|x l IH]; intros p n Hl; cbn [fold_left].
  - rewrite decide_False; [done|]. by intros H%elem_of_nil.
  - inversion Hl; subst. rewrite IH by done. unfold put. destruct (decide (n = x)) as [->|Hn].
    + rewrite (decide_False (P := x ∈ l)) by done. rewrite decide_True by left. done.
    + destruct (decide (n ∈ l)) as [Hi|Hi]; [by rewrite decide_True by (by right)|]. rewrite decide_False; [done|]. rewrite elem_of_cons. tauto.
Qed.

Section P.
  Context (choose : list ptr -> nat) (capA capG total : nat).
  Definition cinv (s : coords) : Prop := sinv capA capG total (coS s) /\ length (coSnap s) = capA.
  Lemma cinv_nodup s : cinv s -> NoDup (aSet (coS s)) /\ NoDup (gSet (coS s)) /\ (length (aSet (coS s)) <= capA)%nat.
  Proof.
    intros [I _]. pose proof (sinv_nodupA capA capG total _ I) as H1. pose proof (sinv_nodupG capA capG total _ I) as H2.
    apply NoDup_app in H1 as (_ & _ & H1). apply NoDup_app in H1 as (_ & _ & H1).
    apply NoDup_app in H2 as (_ & _ & H2). apply NoDup_app in H2 as (_ & _ & H2). split; [done|]. split; [done|].
    pose proof (Permutation_length (s_A _ _ _ _ I)) as HL. rewrite seq_length, !app_length in HL. lia.
  Qed.
  Lemma snap_loop (f : nat -> vec3 R) l : forall sn i, (i + length l <= length sn)%nat ->
    exists sn', foldM (fun x n => let '(sn, i) := x in let? sn := aset sn i (f n) in Ok (sn, S i)) (sn, i) l = Ok (sn', (i + length l)%nat) /\
      length sn' = length sn /\ (forall k, (k < i)%nat -> sn' !! k = sn !! k) /\ forall k n, l !! k = Some n -> sn' !! (i + k)%nat = Some (f n).
  Proof.
    induction l as [|x l IH]; intros sn i Hi; cbn [foldM length] in *.
    - exists sn. rewrite Nat.add_0_r. repeat split; done.
    - replace (aset sn i (f x)) with (Ok (<[i := f x]> sn)) by (unfold aset; rewrite decide_True by lia; done). cbn [obind].
      destruct (IH (<[i := f x]> sn) (S i)) as (sn' & E & HL & H1 & H2); [rewrite insert_length; lia|]. exists sn'. rewrite E.
      replace (S i + length l)%nat with (i + S (length l))%nat by lia. split; [done|]. rewrite insert_length in HL. split; [done|]. split.
      + intros k Hk. rewrite H1 by lia. rewrite list_lookup_insert_ne by lia. done.
      + intros [|k] n Hn; cbn in Hn.
        * injection Hn as ->. rewrite Nat.add_0_r, H1 by lia. apply list_lookup_insert. lia.
        * replace (i + S k)%nat with (S i + k)%nat by lia. by apply H2.
  Qed.
  Lemma step_inv s o : cinv s -> co_op_ok capA capG o ->
    match co_step choose s o with ROk s' _ | RThrow s' => cinv s' | RUB => False end.
  Proof.
    intros I Ho. pose proof (cinv_nodup s I) as (N1 & N2 & HL). destruct I as [I Hs]. destruct o as [o|[n|n] r|t|t| |]; cbn [co_step].
    - pose proof (st_step_good choose capA capG total (coS s) o I) as H. specialize (H ltac:(by destruct o)).
      destruct (st_step choose (coS s) o); cbn in H; [by split..|done].
    - by split.
    - by split.
    - unfold cartToGenAll. by destruct (coCart s); split.
    - unfold genToCartAll. by destruct (coCart s); split.
    - unfold makeSnapshot. destruct (coCart s); [|by split]. cbn [negb].
      destruct (snap_loop (coL s) (aSet (coS s)) (coSnap s) 0) as (sn & E & HL' & _); [lia|]. rewrite E. cbn [obind].
      split; [split; apply I|]. cbn. lia.
    - split; [split; apply I|done].
  Qed.
  Lemma run_inv s ops : cinv s -> Forall (co_op_ok capA capG) ops -> exists s', co_run choose s ops = Some s' /\ cinv s'.
  Proof.
    revert s. induction ops as [|o ops IH]; intros s I Ho; cbn [co_run]; [eauto|]. inversion Ho; subst.
    pose proof (step_inv s o I ltac:(done)) as H. destruct (co_step choose s o); [by apply IH..|done].
  Qed.
  Lemma init_inv pl pg sn : length sn = capA -> cinv (co_init capA capG total pl pg sn).
  Proof. intros H. split; [apply sinv_init|done]. Qed.
End P.

(** C52.  After any history of calls of AtomStorage, with positions assigned at will: a conversion to the kind of coordinates
    already kept throws; the other conversion succeeds, keeps every atom in use where it is, changes nothing else, and
    converting back restores every stored number. *)
Theorem coordinates_converted :
  forall choose capA capG total pl pg sn ops s t, length sn = capA -> Forall (co_op_ok capA capG) ops ->
  co_run choose (co_init capA capG total pl pg sn) ops = Some s -> a_transform t ->
  (if coCart s then genToCartAll t s = Throw else cartToGenAll t s = Throw) /\
  exists s', (if coCart s then cartToGenAll t s else genToCartAll t s) = Ok s' /\
    coCart s' = negb (coCart s) /\ coS s' = coS s /\ coSnap s' = coSnap s /\
    (forall p, in_use s p -> stored s' p = (if coCart s then tGen t (stored s p) else tCart t (stored s p)) /\ place t s' p = place t s p) /\
    (forall p, ~ in_use s p -> stored s' p = stored s p) /\
    exists s2, (if coCart s then genToCartAll t s' else cartToGenAll t s') = Ok s2 /\
      coCart s2 = coCart s /\ coS s2 = coS s /\ forall p, stored s2 p = stored s p.
Proof.
  intros choose capA capG total pl pg sn ops s t Hsn Ho Hr Ht.
  destruct (run_inv choose capA capG total _ ops (init_inv capA capG total pl pg sn Hsn) Ho) as (s' & Hr' & I).
  rewrite Hr in Hr'. injection Hr' as <-. destruct (cinv_nodup capA capG total s I) as (N1 & N2 & _).
  destruct (transform_inverse t Ht) as [T1 T2]. unfold genToCartAll, cartToGenAll, place. destruct (coCart s) eqn:EC; cbn [negb].
  - split; [done|]. eexists. split; [done|]. cbn [coCart coS coSnap coL coG negb]. split; [done|]. split; [done|]. split; [done|]. split.
    { intros [n|n] Hn; cbn [stored in_use coL coG coCart] in *; rewrite convert_get, decide_True by done; rewrite ?T1; done. }
    split. { intros [n|n] Hn; cbn [stored in_use coL coG] in *; rewrite convert_get, decide_False by done; done. }
    eexists. split; [done|]. cbn [coCart coS coL coG]. split; [done|]. split; [done|].
    intros [n|n]; cbn [stored coL coG]; rewrite !convert_get by done; destruct (decide _); by rewrite ?T1.
  - split; [done|]. eexists. split; [done|]. cbn [coCart coS coSnap coL coG negb]. split; [done|]. split; [done|]. split; [done|]. split.
    { intros [n|n] Hn; cbn [stored in_use coL coG coCart] in *; rewrite convert_get, decide_True by done; rewrite ?T1; done. }
    split. { intros [n|n] Hn; cbn [stored in_use coL coG] in *; rewrite convert_get, decide_False by done; done. }
    eexists. split; [done|]. cbn [coCart coS coL coG]. split; [done|]. split; [done|].
    intros [n|n]; cbn [stored coL coG]; rewrite !convert_get by done; destruct (decide _); by rewrite ?T2.
Qed.

(** C52, any number of requests to convert, in any order, some of them refused: no atom in use moves. *)
Theorem conversions_keep_places :
  forall choose capA capG total pl pg sn ops s t cs, length sn = capA -> Forall (co_op_ok capA capG) ops ->
  co_run choose (co_init capA capG total pl pg sn) ops = Some s -> a_transform t -> conversions t cs ->
  exists s', co_run choose s cs = Some s' /\ coS s' = coS s /\ forall p, in_use s p -> place t s' p = place t s p.
Proof.
  intros choose capA capG total pl pg sn ops s t cs Hsn Ho Hr Ht Hc.
  destruct (run_inv choose capA capG total _ ops (init_inv capA capG total pl pg sn Hsn) Ho) as (s' & Hr' & I).
  rewrite Hr in Hr'. injection Hr' as <-. clear Hr. destruct (transform_inverse t Ht) as [T1 T2].
  revert s I. induction Hc as [|l Hc IH|l Hc IH]; intros s I; cbn [co_run co_step].
  - eauto.
  - pose proof (step_inv choose capA capG total s (CoToGen t) I ltac:(done)) as I1. cbn [co_step] in I1.
    destruct (cinv_nodup capA capG total s I) as (N1 & N2 & _). unfold cartToGenAll in *. destruct (coCart s) eqn:EC; cbn [negb] in *; [|by apply IH].
    destruct (IH _ I1) as (s' & E & ES & HP). exists s'. split; [done|]. cbn [coS] in ES. split; [done|]. intros p Hp. rewrite HP by (by destruct p).
    unfold place. rewrite EC. cbn [coCart]. destruct p as [n|n]; cbn [stored in_use coL coG] in *; rewrite convert_get, decide_True by done; by rewrite T1.
  - pose proof (step_inv choose capA capG total s (CoToCart t) I ltac:(done)) as I1. cbn [co_step] in I1.
    destruct (cinv_nodup capA capG total s I) as (N1 & N2 & _). unfold genToCartAll in *. destruct (coCart s) eqn:EC; cbn [negb] in *; [by apply IH|].
    destruct (IH _ I1) as (s' & E & ES & HP). exists s'. split; [done|]. cbn [coS] in ES. split; [done|]. intros p Hp. rewrite HP by (by destruct p).
    unfold place. rewrite EC. cbn [coCart]. destruct p as [n|n]; cbn [stored in_use coL coG] in *; rewrite convert_get, decide_True by done; done.
Qed.

(** ** Snapshots *)
Lemma locked_same choose s o : locked s = true -> (forall n, o <> ORemoveAtom n) -> o <> OClearSnapshot ->
  match st_step choose s o with ROk s' _ | RThrow s' => aSet s' = aSet s /\ gSet s' = gSet s /\ locked s' = true | RUB => True end.
Proof.
  intros HL Ho Hc. destruct o; cbn [st_step];
    unfold newAtomPtr, setNewId, addNewAtom, addAtom, newAtomPtr, clearAtoms, newGhostPtr, setNewGhostId,
      addNewGhost, addGhostAtom, newGhostPtr, removeGhostAtom, clearGhostAtoms; rewrite ?HL.
  all: try (repeat case_match; simplify_eq/=; done).
  by destruct (Ho n).
Qed.
Lemma max_loop (sn : list (vec3 R)) (f : nat -> vec3 R) l : forall m i, 0 <= m ->
  (forall k n, l !! k = Some n -> exists q, sn !! (i + k)%nat = Some q) ->
  exists m', foldM (fun x n => let '(m, i) := x in let? q := aget sn i in 
     Ok (if Rgt_dec (normSq (vsub (f n) q)) m then normSq (vsub (f n) q) else m, S i)) (m, i) l = Ok (m', (i + length l)%nat) /\
    m <= m' /\ (forall k n q, l !! k = Some n -> sn !! (i + k)%nat = Some q -> normSq (vsub (f n) q) <= m') /\
    (m' = m \/ exists k n q, l !! k = Some n /\ sn !! (i + k)%nat = Some q /\ normSq (vsub (f n) q) = m').
Proof.
  induction l as [|x l IH]; intros m i Hm Hk; cbn [foldM length].
  - exists m. rewrite Nat.add_0_r. split; [done|]. split; [lra|]. split; [by intros|by left].
  - destruct (Hk 0%nat x eq_refl) as [q Hq]. rewrite Nat.add_0_r in Hq. replace (aget sn i) with (Ok q) by (unfold aget; by rewrite Hq). cbn [obind].
    set (m1 := if Rgt_dec (normSq (vsub (f x) q)) m then normSq (vsub (f x) q) else m).
    assert (H1 : m <= m1 /\ normSq (vsub (f x) q) <= m1 /\ (m1 = m \/ m1 = normSq (vsub (f x) q))) by (unfold m1; destruct (Rgt_dec _ _); lra).
    destruct (IH m1 (S i)) as (m' & E & H2 & H3 & H4); [lra| |].
    { intros k n Hn. replace (S i + k)%nat with (i + S k)%nat by lia. by apply (Hk (S k) n). }
    exists m'. rewrite E. replace (S i + length l)%nat with (i + S (length l))%nat by lia. split; [done|]. split; [lra|]. split.
    + intros [|k] n q' Hn Hq'; cbn in Hn.
      * injection Hn as ->. rewrite Nat.add_0_r, Hq in Hq'. injection Hq' as ->. lra.
      * replace (i + S k)%nat with (S i + k)%nat in Hq' by lia. by eapply H3.
    + destruct H4 as [->|(k & n & q' & A1 & A2 & A3)].
      * destruct H1 as (_ & _ & [->| ->]); [by left|]. right. exists 0%nat, x, q. rewrite Nat.add_0_r. done.
      * right. exists (S k), n, q'. replace (i + S k)%nat with (S i + k)%nat by lia. done.
Qed.
Section Snap.
  Context (choose : list ptr -> nat) (capA capG total : nat).
  (** [s] was reached from a snapshot taken with positions [old] of the atoms [l]. *)
  Definition since (old : nat -> vec3 R) (l : list nat) (s : coords) : Prop :=
    aSet (coS s) = l /\ locked (coS s) = true /\ forall k n, l !! k = Some n -> coSnap s !! k = Some (old n).
  Lemma since_step old l s o : since old l s -> keeps_snapshot o -> co_op_ok capA capG o ->
    match co_step choose s o with ROk s' _ | RThrow s' => since old l s' | RUB => True end.
  Proof.
    intros (H1 & H2 & H3) Hk Ho. destruct o as [o|[n|n] r|t|t| |]; cbn [co_step]; try done.
    - pose proof (locked_same choose (coS s) o H2) as H. specialize (H ltac:(intros n ->; done) ltac:(intros ->; done)).
      destruct (st_step choose (coS s) o); [destruct H as (E1 & _ & E3); unfold since; cbn; by rewrite E1..|done].
    - unfold cartToGenAll. by destruct (coCart s).
    - unfold genToCartAll. by destruct (coCart s).
  Qed.
  Lemma since_run old l ops : forall s s', since old l s -> Forall keeps_snapshot ops -> Forall (co_op_ok capA capG) ops ->
    co_run choose s ops = Some s' -> since old l s'.
  Proof.
    induction ops as [|o ops IH]; intros s s' H Hk Ho; cbn [co_run]; [by intros [= <-]|]. inversion Hk; inversion Ho; subst.
    pose proof (since_step old l s o H ltac:(done) ltac:(done)) as H'. destruct (co_step choose s o); try done; intros E; by eapply IH.
  Qed.
  Lemma since_max old s : since old (aSet (coS s)) s -> coCart s = true ->
    exists m, maxSqDisplacement s = Ok m /\ is_max (aSet (coS s)) (fun n => normSq (vsub (coL s n) (old n))) m.
  Proof.
    intros (_ & H2 & H3) HC. unfold maxSqDisplacement. rewrite HC, H2. cbn [negb]. cbv zeta.
    destruct (max_loop (coSnap s) (coL s) (aSet (coS s)) 0 0) as (m & E & M1 & M2 & M3); [lra| |].
    { intros k n Hn. rewrite Nat.add_0_l. eexists. by apply H3. }
    rewrite E. cbn [obind]. exists m. split; [done|]. split.
    - intros n Hn. apply elem_of_list_lookup_1 in Hn as [k Hk]. apply (M2 k n _ Hk). by apply H3.
    - split; [|done]. destruct M3 as [->|(k & n & q & A1 & A2 & A3)]; [by left|]. right. exists n. split; [by eapply elem_of_list_lookup_2|].
      rewrite Nat.add_0_l, (H3 k n A1) in A2. by injection A2 as <-.
  Qed.
End Snap.

(** C53.  After any history, makeSnapshot succeeds in Cartesian coordinates; after any further operations other than
    removeAtom (and snapshots), the same atoms are in use, and maxSqDisplacement, called in Cartesian coordinates, is the largest
    squared displacement of any of them since the snapshot. *)
Theorem displacement_since_snapshot :
  forall choose capA capG total pl pg sn ops s0 ops' s, length sn = capA ->
  Forall (co_op_ok capA capG) ops -> co_run choose (co_init capA capG total pl pg sn) ops = Some s0 -> coCart s0 = true ->
  exists s1, makeSnapshot s0 = Ok s1 /\
  (Forall keeps_snapshot ops' -> Forall (co_op_ok capA capG) ops' -> co_run choose s1 ops' = Some s ->
   aSet (coS s) = aSet (coS s0) /\
   (coCart s = true -> exists m, maxSqDisplacement s = Ok m /\
      is_max (aSet (coS s)) (fun n => normSq (vsub (coL s n) (coL s0 n))) m) /\
   (coCart s = false -> maxSqDisplacement s = Throw)).
Proof.
  intros choose capA capG total pl pg sn ops s0 ops' s Hsn Ho Hr HC.
  destruct (run_inv choose capA capG total _ ops (init_inv capA capG total pl pg sn Hsn) Ho) as (s' & Hr' & I).
  rewrite Hr in Hr'. injection Hr' as <-. destruct (cinv_nodup capA capG total s0 I) as (N1 & N2 & HL).
  unfold makeSnapshot. rewrite HC. cbn [negb].
  destruct (snap_loop (coL s0) (aSet (coS s0)) (coSnap s0) 0) as (sn' & E & HL' & _ & HG); [destruct I; lia|]. rewrite E. cbn [obind].
  eexists. split; [done|]. intros Hk Ho' Hrun.
  assert (HS : since (coL s0) (aSet (coS s0)) s).
  { eapply (since_run choose capA capG); [|done|done|exact Hrun]. split; [done|]. split; [done|]. cbn. intros k n Hn. by apply (HG k). }
  pose proof (proj1 HS) as EA. split; [done|]. split.
  - intros HC'. apply since_max; [by rewrite EA|done].
  - intros HC'. unfold maxSqDisplacement. by rewrite HC'.
Qed.

(** C53, what goes wrong with removeAtom: with a snapshot held, atom 0 is removed; nothing moves, but the other atom is
    then compared with the saved position of the removed one. *)
Theorem displacement_after_remove_refuted :
  forall t, exists s s', co_run (fun _ => 0%nat) (co_init 2 0 2 (fun _ => V3 0 0 0) (fun _ => V3 0 0 0) [V3 0 0 0; V3 0 0 0])
      [CoToCart t; CoStore (OAddAtom 0); CoStore (OAddAtom 1); CoPut (PL 1) (V3 5 0 0); CoSnapshot] = Some s /\
    maxSqDisplacement s = Ok 0 /\ co_step (fun _ => 0%nat) s (CoStore (ORemoveAtom 0)) = ROk s' tt /\
    (forall p, stored s' p = stored s p) /\ maxSqDisplacement s' = Ok 25.
Proof.
  intros t. eexists _, _. split; [lazy -[IZR put]; reflexivity|]. split; [|split; [lazy -[IZR put]; reflexivity|split; [done|]]].
  - unfold maxSqDisplacement. cbn -[IZR put]. unfold put. rewrite ?(decide_True (P := 1%nat = 1%nat)), ?(decide_False (P := 0%nat = 1%nat)) by done. cbn -[IZR]. unfold normSq, vdot, vsub. cbn -[IZR]. repeat (destruct (Rgt_dec _ _); try lra); f_equal; lra.
  - unfold maxSqDisplacement. cbn -[IZR put]. unfold put. rewrite ?(decide_True (P := 1%nat = 1%nat)), ?(decide_False (P := 0%nat = 1%nat)) by done. cbn -[IZR]. unfold normSq, vdot, vsub. cbn -[IZR]. repeat (destruct (Rgt_dec _ _); try lra); f_equal; lra.
Qed.

(** ** When atoms have to be exchanged *)
Lemma after_max s0 s : after_snapshot s0 s -> aSet (coS s) = aSet (coS s0) /\
  (coCart s = true -> exists m, maxSqDisplacement s = Ok m /\ is_max (aSet (coS s)) (fun n => normSq (vsub (coL s n) (coL s0 n))) m).
Proof.
  intros (choose & capA & capG & total & pl & pg & sn & ops & s1 & ops' & Hsn & Ho & Hr & HC & HM & Hk & Ho' & Hr').
  destruct (displacement_since_snapshot choose capA capG total pl pg sn ops s0 ops' s Hsn Ho Hr HC) as (s1' & E & H).
  rewrite HM in E. injection E as <-. destruct (H Hk Ho' Hr') as (H1 & H2 & _). done.
Qed.
Lemma sqrt_half m skin : 0 <= m -> 0 <= skin -> sqrt m <= 1/2 * skin <-> m <= (skin / 2) * (skin / 2).
Proof.
  intros Hm Hs. split; intros H.
  - rewrite <- (sqrt_sqrt m Hm). replace (skin / 2) with (1/2 * skin) by lra. pose proof (sqrt_pos m). nra.
  - replace (1/2 * skin) with (sqrt ((skin/2) * (skin/2))) by (rewrite sqrt_square; lra). by apply sqrt_le_1_alt.
Qed.

(** C13, DdMd: given the storages of all processors, each some way after its own snapshot (atoms neither added, nor removed, see
    above), isExchangeNeeded gives all processors the same answer, and answers false exactly if no local atom of any
    processor is further than half the skin from where it was; then the distance of any two atoms, with any lattice vector
    [shift] between them, has changed by at most the skin. *)
Theorem exchange_needed_correct :
  forall skin before nodes, 0 <= skin -> Forall2 after_snapshot before nodes -> Forall (fun s => coCart s = true) nodes ->
  exists b, isExchangeNeeded skin nodes = Ok b /\
  (b = false <-> forall k s0 s n, before !! k = Some s0 -> nodes !! k = Some s -> n ∈ aSet (coS s) ->
                 sqrt (normSq (vsub (coL s n) (coL s0 n))) <= skin / 2) /\
  (b = false -> forall k l s0 s r0 r n m shift, before !! k = Some s0 -> nodes !! k = Some s -> before !! l = Some r0 -> nodes !! l = Some r ->
     n ∈ aSet (coS s) -> m ∈ aSet (coS r) ->
     sqrt (normSq (vadd (vsub (coL s0 n) (coL r0 m)) shift)) - skin <= sqrt (normSq (vadd (vsub (coL s n) (coL r m)) shift)) <=
     sqrt (normSq (vadd (vsub (coL s0 n) (coL r0 m)) shift)) + skin).
Proof.
  intros skin before nodes Hskin HF HC.
  assert (HL : exists flags, forall l0, foldM (fun l s => if negb (coCart s) then Throw else
     let? m := maxSqDisplacement s in Ok (l ++ [if Rgt_dec (sqrt m) (1/2 * skin) then true else false])) l0 nodes = Ok (l0 ++ flags) /\
     (existsb (fun b => b) flags = false <-> forall k s0 s n, before !! k = Some s0 -> nodes !! k = Some s -> n ∈ aSet (coS s) ->
                 sqrt (normSq (vsub (coL s n) (coL s0 n))) <= skin / 2)).
  { induction HF as [|s0 s before nodes Hs HF IH].
    - exists []. intros l0. split; [by rewrite app_nil_r|]. split; [|done]. intros _ k s0 s n H. by rewrite lookup_nil in H.
    - inversion HC; subst. destruct (IH ltac:(done)) as (flags & HI). destruct (after_max s0 s Hs) as (_ & HM).
      destruct (HM ltac:(done)) as (m & Em & M1 & M2 & M3).
      exists ((if Rgt_dec (sqrt m) (1/2 * skin) then true else false) :: flags). intros l0. cbn [foldM].
      replace (coCart s) with true by done. rewrite Em. cbn [negb obind].
      destruct (HI (l0 ++ [if Rgt_dec (sqrt m) (1/2 * skin) then true else false])) as [E1 E2]. rewrite E1, <- app_assoc. split; [done|].
      cbn [existsb]. rewrite orb_false_iff, E2. split.
      + intros [F1 F2] [|k] t0 t n Ht0 Ht Hn; cbn in Ht0, Ht; [|by eapply F2]. injection Ht0 as <-. injection Ht as <-.
        destruct (Rgt_dec _ _) as [?|Hg]; [done|]. apply Rnot_gt_le in Hg. pose proof (sqrt_le_1_alt _ _ (M1 n Hn)). lra.
      + intros F. split; [|intros k t0 t n H0 Ht; by apply (F (S k) t0 t n)].
        destruct (Rgt_dec _ _) as [Hg|?]; [|done]. exfalso. destruct M2 as [->|(n & Hn & <-)].
        * rewrite sqrt_0 in Hg. lra.
        * pose proof (F 0%nat s0 s n eq_refl eq_refl Hn). lra. }
  destruct HL as (flags & HL). destruct (HL []) as [E1 E2]. unfold isExchangeNeeded. rewrite E1. cbn [obind app].
  exists (existsb (fun b => b) flags). split; [done|]. split; [done|].
  intros Hb k l s0 s r0 r n m shift B1 B2 B3 B4 Hn Hm. pose proof (proj1 E2 Hb k s0 s n B1 B2 Hn) as D1. pose proof (proj1 E2 Hb l r0 r m B3 B4 Hm) as D2.
  set (a := vsub (coL s n) (coL s0 n)) in *. set (c := vsub (coL r m) (coL r0 m)) in *.
  set (u := vadd (vsub (coL s0 n) (coL r0 m)) shift). set (w := vadd (vsub (coL s n) (coL r m)) shift).
  assert (Ew : w = vadd u (vadd a (vscale (Ropp 1) c))).
  { unfold w, u, a, c, vadd, vsub, vscale. cbn. f_equal; lra. }
  assert (Eu : u = vadd w (vadd c (vscale (Ropp 1) a))).
  { unfold w, u, a, c, vadd, vsub, vscale. cbn. f_equal; lra. }
  pose proof (norm_triangle u (vadd a (vscale (Ropp 1) c))) as T1. rewrite <- Ew in T1.
  pose proof (norm_triangle w (vadd c (vscale (Ropp 1) a))) as T2. rewrite <- Eu in T2.
  pose proof (norm_triangle a (vscale (Ropp 1) c)) as T3. pose proof (norm_triangle c (vscale (Ropp 1) a)) as T4.
  rewrite normSq_neg in T3, T4. lra.
Qed.

(** C52, change of the box between the conversions (as NphIntegrator and NptIntegrator do): every atom in use undergoes the
    same affine map, from its place in the old box to the place with the same generalized coordinates in the new one. *)
Theorem box_change_affine :
  forall choose capA capG total pl pg sn ops s t t', length sn = capA -> Forall (co_op_ok capA capG) ops ->
  co_run choose (co_init capA capG total pl pg sn) ops = Some s -> coCart s = true ->
  exists s', co_run choose s [CoToGen t; CoToCart t'] = Some s' /\ coCart s' = true /\ coS s' = coS s /\
    (forall p, in_use s p -> stored s' p = tCart t' (tGen t (stored s p))) /\ (forall p, ~ in_use s p -> stored s' p = stored s p).
Proof.
  intros choose capA capG total pl pg sn ops s t t' Hsn Ho Hr HC.
  destruct (run_inv choose capA capG total _ ops (init_inv capA capG total pl pg sn Hsn) Ho) as (s' & Hr' & I).
  rewrite Hr in Hr'. injection Hr' as <-. destruct (cinv_nodup capA capG total s I) as (N1 & N2 & _).
  cbn [co_run co_step]. unfold cartToGenAll, genToCartAll. rewrite HC. cbn [negb coCart]. eexists. split; [done|]. split; [done|]. split; [done|].
  split; intros [n|n] Hn; cbn [stored in_use coL coG coS] in *; rewrite !convert_get by done.
  - by rewrite !decide_True by done.
  - by rewrite !decide_True by done.
  - by rewrite !decide_False by done.
  - by rewrite !decide_False by done.
Qed.

(** *** Examples *)
(** A box of lengths 2, 4, 8. *)
Definition ex_t : transform := Tf (cartToGen (box [SetOrtho (V3 2 4 8)])) (genToCart (box [SetOrtho (V3 2 4 8)])).
Lemma ex_t_ok : a_transform ex_t.
Proof. left. eexists. split; [|done]. exists [SetOrtho (V3 2 4 8)]. split; [|done]. constructor; [unfold box_op_ok, positive3; cbn; lra|constructor]. Qed.
(** Two local atoms and a ghost, entered with generalized coordinates as configuration files give them, then converted. *)
Definition ex_ops : list co_op :=
  [CoStore (OAddAtom 3); CoPut (PL 0) (V3 (1/2) (1/4) 0); CoStore (OAddAtom 1); CoPut (PL 1) (V3 0 0 (3/4));
   CoStore (OAddGhost 2); CoPut (PG 0) (V3 1 1 1); CoToCart ex_t; CoToCart ex_t].
Definition ex_start : coords := co_init 3 2 4 (fun _ => V3 0 0 0) (fun _ => V3 0 0 0) [V3 0 0 0; V3 0 0 0; V3 0 0 0].
Example coordinates_example :
  exists s, co_run (fun _ => 0%nat) ex_start ex_ops = Some s /\ Forall (co_op_ok 3 2) ex_ops /\ coCart s = true /\
    aSet (coS s) = [0; 1]%nat /\ gSet (coS s) = [0]%nat /\
    stored s (PL 0) = V3 1 1 0 /\ stored s (PL 1) = V3 0 0 6 /\ stored s (PG 0) = V3 2 4 8.
Proof.
  eexists. split; [lazy -[IZR put convert ex_t]; reflexivity|]. split; [repeat constructor|]. split; [done|]. split; [done|]. split; [done|].
  cbn [stored coL coG]. rewrite !convert_get by (apply (bool_decide_eq_true_1 (NoDup _)); reflexivity).
  repeat match goal with |- context [decide (?x ∈ ?l)] => rewrite (decide_True (P := x ∈ l)) by (apply (bool_decide_eq_true_1 (x ∈ l)); reflexivity) end.
  unfold put. rewrite ?(decide_True (P := 1%nat = 1%nat)), ?(decide_True (P := 0%nat = 0%nat)), ?(decide_False (P := 0%nat = 1%nat)) by done.
  unfold ex_t, genToCart, box. cbn -[IZR]. split; [|split]; f_equal; lra.
Qed.
(** The atoms then move: 1 by 1/2 along x, 3 by 1/10 along y; the largest squared displacement is 1/4, so with a skin of 1/2 atoms
    have to be exchanged, and with a skin of 2 not; the history is one of those of the theorems. *)
Example displacement_example :
  exists s0 s1 s, co_run (fun _ => 0%nat) ex_start ex_ops = Some s0 /\ makeSnapshot s0 = Ok s1 /\
    co_run (fun _ => 0%nat) s1 [CoPut (PL 1) (V3 (1/2) 0 6); CoPut (PL 0) (V3 1 (11/10) 0); CoStore (OAddAtom 0); CoStore OClearGhosts] = Some s /\
    maxSqDisplacement s = Ok (1/4) /\ isExchangeNeeded (1/2) [s] = Ok true /\ isExchangeNeeded 2 [s] = Ok false /\ after_snapshot s0 s.
Proof.
  destruct coordinates_example as (s0 & E & Hok & HC & A1 & A2 & P1 & P2 & P3).
  assert (H3 : length (coSnap ex_start) = 3%nat) by done.
  destruct (displacement_since_snapshot (fun _ => 0%nat) 3 2 4 _ _ _ ex_ops s0
     [CoPut (PL 1) (V3 (1/2) 0 6); CoPut (PL 0) (V3 1 (11/10) 0); CoStore (OAddAtom 0); CoStore OClearGhosts]
     (match co_run (fun _ => 0%nat) s0 [CoSnapshot; CoPut (PL 1) (V3 (1/2) 0 6); CoPut (PL 0) (V3 1 (11/10) 0); CoStore (OAddAtom 0); CoStore OClearGhosts] with Some s => s | None => s0 end)
     H3 Hok E HC) as (s1 & EM & HR).
  assert (ER : exists s, co_run (fun _ => 0%nat) s1 [CoPut (PL 1) (V3 (1/2) 0 6); CoPut (PL 0) (V3 1 (11/10) 0); CoStore (OAddAtom 0); CoStore OClearGhosts] = Some s /\
     coL s 0%nat = V3 1 (11/10) 0 /\ coL s 1%nat = V3 (1/2) 0 6 /\ coCart s = true).
  { unfold makeSnapshot in EM. rewrite HC in EM. cbn [negb] in EM. apply obind_Ok in EM as ([sn i] & _ & EM). injection EM as <-.
    cbn [co_run co_step coS coL coG coCart coSnap]. unfold st_step, addAtom, newAtomPtr, clearGhostAtoms. cbn [locked upd_lock newA].
    destruct (newA (coS s0)) as [z|].
    - eexists. split; [lazy -[IZR put Rdiv]; reflexivity|]. cbn [coL coCart]. unfold put.
      rewrite ?(decide_True (P := 1%nat = 1%nat)), ?(decide_True (P := 0%nat = 0%nat)), ?(decide_False (P := 1%nat = 0%nat)) by done. split; [done|]. split; done.
    - eexists. split; [lazy -[IZR put Rdiv]; reflexivity|]. cbn [coL coCart]. unfold put.
      rewrite ?(decide_True (P := 1%nat = 1%nat)), ?(decide_True (P := 0%nat = 0%nat)), ?(decide_False (P := 1%nat = 0%nat)) by done. split; [done|]. split; done. }
  destruct ER as (s & ER & Q0 & Q1 & HC').
  assert (Hk : Forall keeps_snapshot [CoPut (PL 1) (V3 (1/2) 0 6); CoPut (PL 0) (V3 1 (11/10) 0); CoStore (OAddAtom 0); CoStore OClearGhosts]) by repeat constructor.
  assert (Hk' : Forall (co_op_ok 3 2) [CoPut (PL 1) (V3 (1/2) 0 6); CoPut (PL 0) (V3 1 (11/10) 0); CoStore (OAddAtom 0); CoStore OClearGhosts]) by repeat constructor.
  replace (co_run (fun _ => 0%nat) s0 (CoSnapshot :: _)) with (Some s) in HR by (symmetry; cbn [co_run]; cbn [co_step]; rewrite EM; exact ER).
  destruct (HR Hk Hk' ER) as (HA & HM & _). destruct (HM HC') as (m & Em & M1 & M2 & M3). rewrite HA, A1 in M1, M2. cbn [stored] in P1, P2.
  assert (m = 1/4) as ->.
  { assert (D1 : normSq (vsub (coL s 1%nat) (coL s0 1%nat)) = 1/4) by (rewrite Q1, P2; unfold normSq, vdot, vsub; cbn; lra).
    assert (D0 : normSq (vsub (coL s 0%nat) (coL s0 0%nat)) = 1/100) by (rewrite Q0, P1; unfold normSq, vdot, vsub; cbn; lra).
    pose proof (M1 1%nat ltac:(right; left)) as B1. destruct M2 as [M2|(n & Hn & M2)]; [lra|].
    apply elem_of_cons in Hn as [->|Hn%elem_of_list_singleton]; [lra|]. subst n. lra. }
  assert (Hs : sqrt (1/4) = 1/2) by (replace (1/4) with ((1/2) * (1/2)) by lra; apply sqrt_square; lra).
  exists s0, s1, s. split; [done|]. split; [done|]. split; [done|]. split; [done|].
  unfold isExchangeNeeded. cbn [foldM]. rewrite HC', Em. cbn [negb obind app existsb]. rewrite Hs.
  split; [destruct (Rgt_dec _ _); [done|lra]|]. split; [destruct (Rgt_dec _ _); [lra|done]|].
  exists (fun _ => 0%nat), 3%nat, 2%nat, 4%nat, (fun _ => V3 0 0 0), (fun _ => V3 0 0 0), [V3 0 0 0; V3 0 0 0; V3 0 0 0], ex_ops, s1,
    [CoPut (PL 1) (V3 (1/2) 0 6); CoPut (PL 0) (V3 1 (11/10) 0); CoStore (OAddAtom 0); CoStore OClearGhosts].
  exact (conj eq_refl (conj Hok (conj E (conj HC (conj EM (conj Hk (conj Hk' ER))))))).
Qed.

Print Assumptions coordinates_converted.
Print Assumptions conversions_keep_places.
Print Assumptions displacement_since_snapshot.
Print Assumptions displacement_after_remove_refuted.
Print Assumptions exchange_needed_correct.
Print Assumptions box_change_affine.
