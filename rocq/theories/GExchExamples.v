(** Examples for the exchange of groups, and what is not true. *)
From Verif Require Import Base Containers Vec3 PlanModel PlanSpec PlanProofs DomainModel DomainSpec DomainProofs DomainProps SpeciesModel SpeciesProofs SimProofs DistSpec DistExamples ExchModel ExchSpec ExchProofs ExchAtoms ExchElem ExchStart ExchGhost ExchCopies ExchFinal ExchProps ExchExamples GExchModel GExchSpec GExchProofs GExchAtoms GExchGhosts GExchReach GExchTotal GExchProps.
From Coq Require Import Reals Lra FunctionalExtensionality.
Local Open Scope nat_scope.

(** A processor with given atoms, ghosts and groups. *)
Definition dfl : xatom := at_ 0 (V3 0 0 0)%R.
Definition xp_of (D : domain) (loc gho : list xatom) : xproc :=
  XP D 10 100 (fun h => nth h (loc ++ gho) dfl) (length (loc ++ gho)) (seq 0 (length loc)) (seq (length loc) (length gho)) (fun _ _ => []) (fun _ _ => []).
Definition gp_of (cap : nat) (D : domain) (loc gho : list xatom) (gs : list ggroup) : gproc := GP (xp_of D loc gho) (fun _ => cap) gs.
(** The same after the first part of exchangeAtoms. *)
Definition started (D : domain) (loc gho : list xatom) : xproc :=
  let mem := fun h => nth h (loc ++ gho) dfl in
  XP D 10 100 mem (length (loc ++ gho)) (seq 0 (length loc)) []
    (fold_left (fun t h => if stays D 0 (xPlan (mem h)) then add_sends t 0 (xPlan (mem h)) h else t) (seq 0 (length loc)) (fun _ _ => [])) (fun _ _ => []).
Lemma gstart_gp s cap D loc gho gs : gstart s (gp_of cap D loc gho gs) =
  GP (started D (map (setp s D) loc) gho) (fun _ => cap) (map (mark_group D s (fun h => nth h (map (setp s D) loc ++ gho) dfl) (seq (length loc) (length gho))) gs).
Proof.
  assert (E : xpMem (xstart s (xp_of D loc gho)) = fun h => nth h (map (setp s D) loc ++ gho) dfl).
  { apply functional_extensionality. intros h. unfold xstart, xp_of. cbn [xpMem xpLocals xpDom]. destruct (decide (h ∈ seq 0 (length loc))) as [Hh|Hh].
    - apply elem_of_seq in Hh. rewrite !app_nth1 by (rewrite ?map_length; lia). rewrite (nth_indep (map (setp s D) loc) dfl (setp s D dfl)) by (rewrite map_length; lia). by rewrite map_nth.
    - assert (length loc <= h) by (destruct (decide (h < length loc)); [exfalso; apply Hh; apply elem_of_seq; lia|lia]). rewrite !app_nth2 by (rewrite ?map_length; lia). by rewrite map_length. }
  unfold gstart, gp_of. cbn [gpX gpCap gpGroups]. rewrite E. f_equal.
  change (xstart s (xp_of D loc gho)) with (let mem := xpMem (xstart s (xp_of D loc gho)) in XP D 10 100 mem (length (loc ++ gho)) (seq 0 (length loc)) []
    (fold_left (fun t h => if stays D 0 (xPlan (mem h)) then add_sends t 0 (xPlan (mem h)) h else t) (seq 0 (length loc)) (fun _ _ => [])) (fun _ _ => [])).
  rewrite E. unfold started. cbv zeta. by rewrite !app_length, !map_length.
Qed.
Lemma locals_gp cap D loc gho gs : locals (gpX (gp_of cap D loc gho gs)) = loc.
Proof.
  unfold locals, gp_of, xp_of. cbn [gpX xpMem xpLocals]. apply list_eq. intros i. rewrite list_lookup_fmap. destruct (decide (i < length loc)) as [Hi|Hi].
  - rewrite lookup_seq_lt by done. cbn. rewrite app_nth1 by done. destruct (lookup_lt_is_Some_2 loc i Hi) as [a E]. rewrite E. f_equal. by apply nth_lookup_Some.
  - rewrite lookup_seq_ge by lia. cbn. symmetry. apply lookup_ge_None. lia.
Qed.
Lemma gp_pointers cap D loc gho gs : let p := gpX (gp_of cap D loc gho gs) in NoDup (xpLocals p) /\ Forall (fun h => h < xpNext p) (xpLocals p).
Proof. cbn. split; [apply NoDup_seq|]. apply Forall_forall. intros h Hh. apply elem_of_seq in Hh. rewrite app_length. lia. Qed.
(** Records without and with one group. *)
Lemma ok_nil G cap D loc gho : Forall (fun b => Forall (fun a => xId a ∉ bAtoms b) loc) G -> groups_ok G (gp_of cap D loc gho []).
Proof.
  intros H. split; [split|split; [|split]].
  - constructor.
  - intros b. cbn [gp_of gpGroups map]. rewrite elem_of_nil, locals_gp. split; [done|]. intros (Hb & a & Ha & Hi). exact (proj1 (Forall_forall _ _) (proj1 (Forall_forall _ _) H b Hb) a Ha Hi).
  - intros g Hg. by apply elem_of_nil in Hg.
  - intros g k id [Hg _]. by apply elem_of_nil in Hg.
  - intros g k id [Hg _]. by apply elem_of_nil in Hg.
  - intros h. cbn. rewrite !elem_of_seq. lia.
Qed.
Lemma ok_one cap D loc gho g : Exists (fun a => xId a ∈ gAtoms g) loc -> length (gPtrs g) = length (gAtoms g) ->
  (forall k id, gAtoms g !! k = Some id -> forall h a, loc !! h = Some a -> points g k h <-> xId a = id) ->
  (forall k id, gAtoms g !! k = Some id -> forall h, points g k h -> exists a, (loc ++ gho) !! h = Some a /\ xId a = id) ->
  groups_ok [bond_of g] (gp_of cap D loc gho [g]).
Proof.
  intros HE Hl H1 H2. assert (HN : forall h a, (loc ++ gho) !! h = Some a -> nth h (loc ++ gho) dfl = a) by (intros h a; apply nth_lookup_Some).
  split; [split|split; [|split]].
  - cbn. apply NoDup_singleton.
  - intros b. rewrite locals_gp. cbn [gp_of gpGroups map]. rewrite elem_of_list_singleton. split; [|tauto]. intros ->. split; [done|]. apply Exists_exists in HE as (a & Ha & Hi). by exists a.
  - intros g' Hg'. apply elem_of_list_singleton in Hg'. by subst g'.
  - intros g' k id [Hg' Hk] h Hh. apply elem_of_list_singleton in Hg'. subst g'. cbn [gp_of gpX xp_of xpLocals xpMem] in *. apply elem_of_seq in Hh. destruct (lookup_lt_is_Some_2 loc h) as [a Ha]; [lia|].
    rewrite (HN h a) by (by apply lookup_app_l_Some). by apply H1.
  - intros g' k id [Hg' Hk] h Hh. apply elem_of_list_singleton in Hg'. subst g'. cbn [gp_of gpX xp_of xpLocals xpGhosts xpMem] in *. rewrite !elem_of_seq. destruct (H2 k id Hk h Hh) as (a & Ha & E). pose proof (lookup_lt_Some _ _ _ Ha) as L. rewrite app_length in L.
    destruct (decide (h < length loc)); [left; lia|]. right. split; [lia|]. by rewrite (HN h a Ha).
  - intros h. cbn. rewrite !elem_of_seq. lia.
Qed.

Ltac rdec := repeat match goal with |- context [Rlt_dec ?a ?b] => destruct (Rlt_dec a b); [try (exfalso; lra)|try (exfalso; lra)] end.
Ltac edec := repeat match goal with |- context [decide (?h ∈ ?l)] => destruct (decide (h ∈ l)) as [Xe|Xe]; [try (exfalso; revert Xe; rewrite ?elem_of_cons, ?elem_of_nil; lia)|try (exfalso; apply Xe; rewrite ?elem_of_cons; lia)] end.
Ltac flags := repeat match goal with |- context [exchange ?p ?i ?j] => let b := eval vm_compute in (exchange p i j) in change (exchange p i j) with b end.
Lemma plan_atom_eq D s x a b : (forall i, i < 3 -> domainBound D i 0 = vget a i /\ domainBound D i 1 = vget b i) ->
  plan_atom D s x = fold_left (fun p i =>
    let p := if Rlt_dec (vget x i) (vget a i) then let p := setExchange p i 0 in if Rlt_dec (vget a i - vget s i) (vget x i) then setGhost p i 1 else p
             else if Rlt_dec (vget x i) (vget a i + vget s i) then setGhost p i 0 else p in
    if Rlt_dec (vget b i) (vget x i) then let p := setExchange p i 1 in if Rlt_dec (vget x i) (vget b i + vget s i) then setGhost p i 0 else p
    else if Rlt_dec (vget b i - vget s i) (vget x i) then setGhost p i 1 else p) [0; 1; 2] (clearFlags 0%N).
Proof.
  intros H. unfold plan_atom. cbn [fold_left]. unfold plan_axis, xinner, xouter. destruct (H 0 ltac:(lia)) as [-> ->], (H 1 ltac:(lia)) as [-> ->], (H 2 ltac:(lia)) as [-> ->]. done.
Qed.
Lemma spans_eq D s mem gl i j g a b : domainBound D i 0 = a -> domainBound D i 1 = b -> spans D s mem gl i j g =
  existsb (fun h => let x := vget (xPos (mem h)) i in if decide (h ∈ gl) then match j with 0 => if Rlt_dec x (a + vget s i) then true else false | _ => if Rlt_dec (b - vget s i) x then true else false end else exchange (xPlan (mem h)) i j) (ptrs g) &&
  existsb (fun h => let x := vget (xPos (mem h)) i in if decide (h ∈ gl) then match j with 0 => if Rlt_dec (a - vget s i) x then true else false | _ => if Rlt_dec x (b + vget s i) then true else false end else negb (exchange (xPlan (mem h)) i j)) (ptrs g).
Proof. intros <- <-. done. Qed.

(** ** Three processors along x, two along y *)
Definition dims6 : vec3 Z := V3 3%Z 2%Z 1%Z.
Definition dom6 (r : Z) : domain := match domain_initialize dims6 6 r with Ok D => D | _ => Domain dims6 0 dims6 (fun _ _ => 0%Z) (fun _ _ => 0%Z) (fun _ _ => 0%Z) end.
Lemma dims6_ok : grid_ok dims6 /\ domains_of dims6 (map dom6 [0;1;2;3;4;5]%Z).
Proof.
  split; [unfold grid_ok; cbn; lia|]. split; [done|]. intros [|[|[|[|[|[|r]]]]]] D; cbn [map]; intros HD; cbn in HD; try discriminate; injection HD as <-; reflexivity.
Qed.
Definition s6 : vec3 R := (V3 (1/12) (1/12) (1/12))%R.
Definition m6 : vec3 R := (V3 (1/48) (1/48) (1/48))%R.
Definition e6 : vec3 R := (V3 (1/8) (1/8) (1/8))%R.
Definition pA : vec3 R := (V3 (23/96) (47/96) (1/2))%R.
Definition pB : vec3 R := (V3 (17/48) (47/96) (1/2))%R.
Definition pC : vec3 R := (V3 (15/48) (47/96) (1/2))%R.
Definition angle (l : list (option nat)) : ggroup := GG 1 4 0 [1; 2; 3]%Z l 0%N.
(** Processor 2 at (1, 0) owns atoms 2 and 3, processor 1 at (0, 1) owns atom 1. *)
Definition sys6 : list gproc := [
  gp_of 2 (dom6 0) [] [] [];
  gp_of 2 (dom6 1) [at_ 1 pA] [at_ 2 pB; at_ 3 pC] [angle [Some 0; Some 1; Some 2]];
  gp_of 2 (dom6 2) [at_ 2 pB; at_ 3 pC] [at_ 1 pA] [angle [Some 2; Some 0; Some 1]];
  gp_of 2 (dom6 3) [] [] []; gp_of 2 (dom6 4) [] [] []; gp_of 2 (dom6 5) [] [] []].
Lemma bounds6_1 i : i < 3 -> domainBound (dom6 1) i 0 = vget (V3 0 (1/2) 0)%R i /\ domainBound (dom6 1) i 1 = vget (V3 (1/3) 1 1)%R i.
Proof.
  intros Hi. unfold domainBound. assert (Hd : dDims (dom6 1) = dims6 /\ dCoords (dom6 1) = V3 0%Z 1%Z 0%Z) by done. destruct Hd as [-> ->].
  destruct i as [|[|[|]]]; [| | |lia]; cbn [vget dims6 vx vy vz INR]; split; field.
Qed.
Lemma bounds6_2 i : i < 3 -> domainBound (dom6 2) i 0 = vget (V3 (1/3) 0 0)%R i /\ domainBound (dom6 2) i 1 = vget (V3 (2/3) (1/2) 1)%R i.
Proof.
  intros Hi. unfold domainBound. assert (Hd : dDims (dom6 2) = dims6 /\ dCoords (dom6 2) = V3 1%Z 0%Z 0%Z) by done. destruct Hd as [-> ->].
  destruct i as [|[|[|]]]; [| | |lia]; cbn [vget dims6 vx vy vz INR]; split; field.
Qed.
Definition at_plan (id : Z) (x : vec3 R) (p : plan) : xatom := XA id 0 x p (V3 0 0 0)%R 7.
Definition planA : plan := setGhost (setExchange (clearFlags 0%N) 1 0) 1 1.
Definition planB : plan := setGhost (setGhost (clearFlags 0%N) 0 0) 1 1.
Definition planC : plan := setGhost (setGhost (setExchange (clearFlags 0%N) 0 0) 0 1) 1 1.
Ltac plan HB := unfold setp, at_plan; cbn [at_ xId xType xPos xForce xRest]; rewrite (plan_atom_eq _ _ _ _ _ HB); cbn [fold_left vget vx vy vz s6 pA pB pC]; cbv zeta; rdec; reflexivity.
Lemma setA : setp s6 (dom6 1) (at_ 1 pA) = at_plan 1 pA planA.
Proof. plan bounds6_1. Qed.
Lemma setB : setp s6 (dom6 2) (at_ 2 pB) = at_plan 2 pB planB.
Proof. plan bounds6_2. Qed.
Lemma setC : setp s6 (dom6 2) (at_ 3 pC) = at_plan 3 pC planC.
Proof. plan bounds6_2. Qed.
(** The plans of the two records. *)
Definition plan1 : plan := clearGhost (setGhost (setGhost (clearGhost (clearFlags 0%N) 0 0) 0 1) 1 0) 1 1.
Definition plan2 : plan := setGhost (clearGhost (clearGhost (setGhost (clearFlags 0%N) 0 0) 0 1) 1 0) 1 1.
Ltac span HB i := rewrite (spans_eq _ _ _ _ _ _ _ _ _ (proj1 (HB i ltac:(lia))) (proj2 (HB i ltac:(lia)))); cbn [ptrs angle gPtrs omap list_omap existsb]; edec; cbn [nth app vget vx vy vz s6 pA pB pC at_plan at_ xPos xPlan]; flags; cbv zeta; rdec; reflexivity.
Lemma mark1 : mark_group (dom6 1) s6 (fun h => nth h ([at_plan 1 pA planA] ++ [at_ 2 pB; at_ 3 pC]) dfl) [1; 2] (angle [Some 0; Some 1; Some 2]) =
  GG 1 4 0 [1; 2; 3]%Z [Some 0; None; None] plan1.
Proof.
  set (mem := fun h => nth h _ _). assert (S00 : spans (dom6 1) s6 mem [1; 2] 0 0 (angle [Some 0; Some 1; Some 2]) = false) by (unfold mem; span bounds6_1 0).
  assert (S01 : spans (dom6 1) s6 mem [1; 2] 0 1 (angle [Some 0; Some 1; Some 2]) = true) by (unfold mem; span bounds6_1 0).
  assert (S10 : spans (dom6 1) s6 mem [1; 2] 1 0 (angle [Some 0; Some 1; Some 2]) = true) by (unfold mem; span bounds6_1 1).
  assert (S11 : spans (dom6 1) s6 mem [1; 2] 1 1 (angle [Some 0; Some 1; Some 2]) = false) by (unfold mem; span bounds6_1 1).
  unfold mark_group, group_plan. cbn [dirs fold_left fst snd]. change (xflag (dom6 1) 0) with true. change (xflag (dom6 1) 1) with true. change (xflag (dom6 1) 2) with false. change (is_complete (angle [Some 0; Some 1; Some 2])) with true.
  cbv iota. rewrite S00, S01, S10, S11. reflexivity.
Qed.
Lemma mark2 : mark_group (dom6 2) s6 (fun h => nth h ([at_plan 2 pB planB; at_plan 3 pC planC] ++ [at_ 1 pA]) dfl) [2] (angle [Some 2; Some 0; Some 1]) =
  GG 1 4 0 [1; 2; 3]%Z [None; Some 0; Some 1] plan2.
Proof.
  set (mem := fun h => nth h _ _). assert (S00 : spans (dom6 2) s6 mem [2] 0 0 (angle [Some 2; Some 0; Some 1]) = true) by (unfold mem; span bounds6_2 0).
  assert (S01 : spans (dom6 2) s6 mem [2] 0 1 (angle [Some 2; Some 0; Some 1]) = false) by (unfold mem; span bounds6_2 0).
  assert (S10 : spans (dom6 2) s6 mem [2] 1 0 (angle [Some 2; Some 0; Some 1]) = false) by (unfold mem; span bounds6_2 1).
  assert (S11 : spans (dom6 2) s6 mem [2] 1 1 (angle [Some 2; Some 0; Some 1]) = true) by (unfold mem; span bounds6_2 1).
  unfold mark_group, group_plan. cbn [dirs fold_left fst snd]. change (xflag (dom6 2) 0) with true. change (xflag (dom6 2) 1) with true. change (xflag (dom6 2) 2) with false. change (is_complete (angle [Some 2; Some 0; Some 1])) with true.
  cbv iota. rewrite S00, S01, S10, S11. reflexivity.
Qed.
Lemma start6 : map (gstart s6) sys6 = [
  GP (started (dom6 0) [] []) (fun _ => 2) [];
  GP (started (dom6 1) [at_plan 1 pA planA] [at_ 2 pB; at_ 3 pC]) (fun _ => 2) [GG 1 4 0 [1; 2; 3]%Z [Some 0; None; None] plan1];
  GP (started (dom6 2) [at_plan 2 pB planB; at_plan 3 pC planC] [at_ 1 pA]) (fun _ => 2) [GG 1 4 0 [1; 2; 3]%Z [None; Some 0; Some 1] plan2];
  GP (started (dom6 3) [] []) (fun _ => 2) []; GP (started (dom6 4) [] []) (fun _ => 2) []; GP (started (dom6 5) [] []) (fun _ => 2) []].
Proof. unfold sys6. cbn [map]. rewrite !gstart_gp. cbn [map length seq]. rewrite setA, setB, setC, mark1, mark2. reflexivity. Qed.
Lemma throw6 : gexchange s6 sys6 = Throw.
Proof. unfold gexchange, gexchangeAtoms. rewrite start6. vm_compute. reflexivity. Qed.

Definition G6 : list bond := [Bond 1 4 0 [1; 2; 3]%Z].
Ltac elem := rewrite ?elem_of_cons, ?elem_of_nil; tauto.
Ltac three k := destruct k as [|[|[|]]]; [| | |done].
Lemma held6 : held (map gpX sys6) = [(1, at_ 1 pA); (2, at_ 2 pB); (2, at_ 3 pC)].
Proof. unfold held, sys6. cbn [map length seq flat_map lookup list_lookup]. rewrite !locals_gp. reflexivity. Qed.
Lemma system6 : group_system dims6 G6 sys6.
Proof.
  split.
  - split; [exact (proj1 dims6_ok)|exact (proj2 dims6_ok)|]. unfold sys6. cbn [map]. repeat (constructor; [apply gp_pointers|]). constructor.
  - rewrite held6. apply (bool_decide_eq_true_1 (NoDup _)). reflexivity.
  - apply NoDup_singleton.
  - unfold sys6, G6. constructor; [apply ok_nil; repeat constructor|]. constructor.
    { apply (ok_one 2 (dom6 1) [at_ 1 pA] [at_ 2 pB; at_ 3 pC] (angle [Some 0; Some 1; Some 2])); [left; cbn; elem|done| |].
      - intros k id Hk h a Ha. destruct h as [|]; [|done]. cbn in Ha. injection Ha as <-. unfold points. three k; cbn in Hk |- *; injection Hk as <-; split; congruence.
      - intros k id Hk h Hh. unfold points in Hh. three k; cbn in Hk, Hh; injection Hk as <-; injection Hh as <-; eauto. }
    constructor.
    { apply (ok_one 2 (dom6 2) [at_ 2 pB; at_ 3 pC] [at_ 1 pA] (angle [Some 2; Some 0; Some 1])); [left; cbn; elem|done| |].
      - intros k id Hk h a Ha. destruct h as [|[|]]; [| |done]; cbn in Ha; injection Ha as <-; unfold points; three k; cbn in Hk |- *; injection Hk as <-; split; congruence.
      - intros k id Hk h Hh. unfold points in Hh. three k; cbn in Hk, Hh; injection Hk as <-; injection Hh as <-; eauto. }
    repeat (constructor; [apply ok_nil; repeat constructor|]). constructor.
Qed.
Ltac axes i Hi := destruct i as [|[|[|]]]; [| | |exfalso; clear - Hi; lia].
Lemma displaced6 : displaced dims6 m6 (map gpX sys6).
Proof.
  split; [intros i Hi; axes i Hi; unfold width; cbn [vget vx vy vz translate dims6 m6 s6 e6 pA pB pC at_ xPos xId snd fst gp_of gpX xp_of xpMem nth app]; lra|]. intros p a Hp Ha. unfold sys6 in Hp. cbn [map] in Hp. rewrite !elem_of_cons, elem_of_nil in Hp.
  destruct Hp as [->|[->|[->|[->|[->|[->|[]]]]]]]; rewrite locals_gp in Ha; rewrite ?elem_of_cons, elem_of_nil in Ha; try done; intros i Hi; cbn [gp_of gpX xp_of xpDom].
  - destruct Ha as [->|[]]. destruct (bounds6_1 i Hi) as [-> ->]. axes i Hi; cbn [vget vx vy vz translate dims6 m6 s6 e6 pA pB pC at_ xPos xId snd fst gp_of gpX xp_of xpMem nth app]; lra.
  - destruct (bounds6_2 i Hi) as [-> ->]. destruct Ha as [->|[->|[]]]; axes i Hi; cbn [vget vx vy vz translate dims6 m6 s6 e6 pA pB pC at_ xPos xId snd fst gp_of gpX xp_of xpMem nth app]; lra.
Qed.
Definition W6 (id : Z) : vec3 R := if decide (id = 1)%Z then pA else if decide (id = 2)%Z then pB else pC.
Ltac w6 := change (W6 1%Z) with pA; change (W6 2%Z) with pB; change (W6 3%Z) with pC.
Ltac rabs := unfold Rabs; match goal with |- context [Rcase_abs ?x] => destruct (Rcase_abs x) end; lra.
Lemma placed6 : Forall (fun q => Forall (placed dims6 s6 e6 (map gpX sys6) q) (gpGroups q)) sys6.
Proof.
  assert (H1 : forall id, id ∈ [1; 2; 3]%Z -> exists u k, u ∈ held (map gpX sys6) /\ xId u.2 = id /\ W6 id = translate (xPos u.2) k).
  { rewrite held6. intros id Hid. rewrite !elem_of_cons, elem_of_nil in Hid. destruct Hid as [->|[->|[->|[]]]].
    - exists (1, at_ 1 pA), (V3 0 0 0)%Z. split; [elem|]. split; [done|]. w6. unfold translate. cbn [snd at_ xPos]. unfold pA. cbn [vx vy vz]. f_equal; lra.
    - exists (2, at_ 2 pB), (V3 0 0 0)%Z. split; [elem|]. split; [done|]. w6. unfold translate. cbn [snd at_ xPos]. unfold pB. cbn [vx vy vz]. f_equal; lra.
    - exists (2, at_ 3 pC), (V3 0 0 0)%Z. split; [elem|]. split; [done|]. w6. unfold translate. cbn [snd at_ xPos]. unfold pC. cbn [vx vy vz]. f_equal; lra. }
  assert (H3 : forall id id' i, id ∈ [1; 2; 3]%Z -> id' ∈ [1; 2; 3]%Z -> i < 3 -> (1 < vget dims6 i)%Z -> (Rabs (vget (W6 id) i - vget (W6 id') i) <= vget e6 i)%R).
  { intros id id' i Hid Hid' Hi _. rewrite !elem_of_cons, elem_of_nil in Hid, Hid'. destruct Hid as [->|[->|[->|[]]]], Hid' as [->|[->|[->|[]]]]; w6; axes i Hi; cbn [vget vx vy vz translate dims6 m6 s6 e6 pA pB pC at_ xPos xId snd fst gp_of gpX xp_of xpMem nth app]; rabs. }
  unfold sys6. apply Forall_cons. split; [constructor|]. apply Forall_cons. split.
  { apply Forall_singleton. exists W6. split; [exact H1|]. split; [|exact H3]. intros k id h Hk Hh. unfold points in Hh. three k; cbn in Hk, Hh; injection Hk as <-; injection Hh as <-; (split; [done|]); intros _ i Hi _; w6; axes i Hi; cbn [vget vx vy vz translate dims6 m6 s6 e6 pA pB pC at_ xPos xId snd fst W6 gp_of gpX xp_of xpMem nth app]; rabs. }
  apply Forall_cons. split.
  { apply Forall_singleton. exists W6. split; [exact H1|]. split; [|exact H3]. intros k id h Hk Hh. unfold points in Hh. three k; cbn in Hk, Hh; injection Hk as <-; injection Hh as <-; (split; [done|]); intros _ i Hi _; w6; axes i Hi; cbn [vget vx vy vz translate dims6 m6 s6 e6 pA pB pC at_ xPos xId snd fst W6 gp_of gpX xp_of xpMem nth app]; rabs. }
  apply Forall_cons. split; [constructor|]. apply Forall_cons. split; [constructor|]. apply Forall_cons. split; [constructor|]. constructor.
Qed.
Lemma room6 : room G6 sys6.
Proof.
  unfold room. rewrite held6. unfold sys6, gp_of, G6, of_kind. cbn [length].
  assert (H : forall k, length (List.filter (fun b => Nat.eqb (bKind b) k) [Bond 1 4 0 [1; 2; 3]%Z]) < 2) by (intros k; cbn [List.filter]; destruct (Nat.eqb _ _); cbn; lia).
  repeat (apply Forall_cons; split; [cbn [gpX gpCap xp_of xpCap xpGCap]; split; [lia|split; [lia|exact H]]|]). constructor.
Qed.
Lemma populated6 : populated G6 (map gpX sys6).
Proof.
  intros b id Hb Hid. apply elem_of_list_singleton in Hb. subst b. rewrite held6. cbn [bAtoms] in Hid. rewrite !elem_of_cons, elem_of_nil in Hid. destruct Hid as [->|[->|[->|[]]]].
  - exists (1, at_ 1 pA). split; [elem|done].
  - exists (2, at_ 2 pB). split; [elem|done].
  - exists (2, at_ 3 pC). split; [elem|done].
Qed.
(** [bonds_complete] is not true of groups with three atoms: the plan of a group that arrives after another record of the same group is dropped with the directions in which its
    atoms must be sent, and exchange throws "Incomplete group after search for ghosts". *)
Theorem angles_complete_refuted : ~ (forall dims m s e G sys, group_system dims G sys -> displaced dims m (map gpX sys) -> slabs dims m s -> room G sys -> populated G (map gpX sys) ->
  (forall i, i < 3 -> (vget m i < vget s i)%R) -> (forall i, i < 3 -> (vget e i + vget m i < width dims i)%R) ->
  Forall (fun q => Forall (placed dims s e (map gpX sys) q) (gpGroups q)) sys -> Forall (fun b => length (bAtoms b) <= 3) G -> exists sys2, gexchange s sys = Ok sys2).
Proof.
  intros HA. destruct (HA dims6 m6 s6 e6 G6 sys6 system6 displaced6) as [sys2 H2]; [| | | | | | |by rewrite throw6 in H2].
  - intros i Hi. axes i Hi; unfold width; cbn [vget vx vy vz dims6 m6 s6]; lra.
  - exact room6.
  - exact populated6.
  - intros i Hi. axes i Hi; cbn [vget vx vy vz m6 s6]; lra.
  - intros i Hi. axes i Hi; unfold width; cbn [vget vx vy vz dims6 m6 e6]; lra.
  - exact placed6.
  - apply Forall_singleton. cbn. lia.
Qed.

(** ** Two processors along x, one bond *)
Definition sb : vec3 R := (V3 (1/8) (1/8) (1/8))%R.
Definition mb : vec3 R := (V3 (1/16) (1/16) (1/16))%R.
Definition eb : vec3 R := (V3 (1/4) (1/4) (1/4))%R.
Definition qA : vec3 R := (V3 (-1/32) (1/2) (1/2))%R.
Definition qA1 : vec3 R := (V3 (31/32) (1/2) (1/2))%R.
Definition qB : vec3 R := (V3 (3/4) (1/2) (1/2))%R.
Definition qB1 : vec3 R := (V3 (-1/4) (1/2) (1/2))%R.
Definition the_bond (l : list (option nat)) : ggroup := GG 0 3 2 [5; 7]%Z l 0%N.
Definition Gb : list bond := [Bond 0 3 2 [5; 7]%Z].
(** Atom 5 has crossed the lower face of the box; both processors have the bond. *)
Definition sysb (cap : nat) : list gproc := [
  gp_of cap (dom2 0) [at_ 5 qA] [at_ 7 qB1] [the_bond [Some 0; Some 1]];
  gp_of cap (dom2 1) [at_ 7 qB] [at_ 5 qA1] [the_bond [Some 1; Some 0]]].
Lemma heldb cap : held (map gpX (sysb cap)) = [(0, at_ 5 qA); (1, at_ 7 qB)].
Proof. unfold held, sysb. cbn [map length seq flat_map lookup list_lookup]. rewrite !locals_gp. reflexivity. Qed.
Ltac two k := destruct k as [|[|]]; [| |done].
Lemma systemb cap : group_system dims2 Gb (sysb cap).
Proof.
  split.
  - split; [exact (proj1 dims2_ok)|exact (proj2 dims2_ok)|]. unfold sysb. cbn [map]. repeat (constructor; [apply gp_pointers|]). constructor.
  - rewrite heldb. apply (bool_decide_eq_true_1 (NoDup _)). reflexivity.
  - apply NoDup_singleton.
  - unfold sysb, Gb. constructor.
    { apply (ok_one cap (dom2 0) [at_ 5 qA] [at_ 7 qB1] (the_bond [Some 0; Some 1])); [left; cbn; elem|done| |].
      - intros k id Hk h a Ha. destruct h as [|]; [|done]. cbn in Ha. injection Ha as <-. unfold points. two k; cbn in Hk |- *; injection Hk as <-; split; congruence.
      - intros k id Hk h Hh. unfold points in Hh. two k; cbn in Hk, Hh; injection Hk as <-; injection Hh as <-; eauto. }
    constructor; [|constructor].
    { apply (ok_one cap (dom2 1) [at_ 7 qB] [at_ 5 qA1] (the_bond [Some 1; Some 0])); [left; cbn; elem|done| |].
      - intros k id Hk h a Ha. destruct h as [|]; [|done]. cbn in Ha. injection Ha as <-. unfold points. two k; cbn in Hk |- *; injection Hk as <-; split; congruence.
      - intros k id Hk h Hh. unfold points in Hh. two k; cbn in Hk, Hh; injection Hk as <-; injection Hh as <-; eauto. }
Qed.
Lemma boundsb0 i : i < 3 -> domainBound (dom2 0) i 0 = vget (V3 0 0 0)%R i /\ domainBound (dom2 0) i 1 = vget (V3 (1/2) 1 1)%R i.
Proof.
  intros Hi. unfold domainBound. assert (Hd : dDims (dom2 0) = dims2 /\ dCoords (dom2 0) = V3 0%Z 0%Z 0%Z) by done. destruct Hd as [-> ->].
  destruct i as [|[|[|]]]; [| | |lia]; cbn [vget dims2 vx vy vz INR]; split; field.
Qed.
Lemma boundsb1 i : i < 3 -> domainBound (dom2 1) i 0 = vget (V3 (1/2) 0 0)%R i /\ domainBound (dom2 1) i 1 = vget (V3 1 1 1)%R i.
Proof.
  intros Hi. unfold domainBound. assert (Hd : dDims (dom2 1) = dims2 /\ dCoords (dom2 1) = V3 1%Z 0%Z 0%Z) by done. destruct Hd as [-> ->].
  destruct i as [|[|[|]]]; [| | |lia]; cbn [vget dims2 vx vy vz INR]; split; field.
Qed.
Lemma displacedb cap : displaced dims2 mb (map gpX (sysb cap)).
Proof.
  split; [intros i Hi; axes i Hi; unfold width; cbn [vget vx vy vz dims2 mb]; lra|]. intros p a Hp Ha. unfold sysb in Hp. cbn [map] in Hp. rewrite !elem_of_cons, elem_of_nil in Hp.
  destruct Hp as [->|[->|[]]]; rewrite locals_gp in Ha; rewrite ?elem_of_cons, elem_of_nil in Ha; destruct Ha as [->|[]]; intros i Hi; cbn [gp_of gpX xp_of xpDom].
  - destruct (boundsb0 i Hi) as [-> ->]. axes i Hi; cbn [vget vx vy vz mb at_ xPos qA]; lra.
  - destruct (boundsb1 i Hi) as [-> ->]. axes i Hi; cbn [vget vx vy vz mb at_ xPos qB]; lra.
Qed.
Lemma slabsb : slabs dims2 mb sb /\ slabs dims2 mb eb.
Proof. split; intros i Hi; axes i Hi; unfold width; cbn [vget vx vy vz dims2 mb sb eb]; lra. Qed.
Lemma roomb : room Gb (sysb 2).
Proof.
  unfold room. rewrite heldb. unfold sysb, gp_of, Gb, of_kind. cbn [length].
  assert (H : forall k, length (List.filter (fun b => Nat.eqb (bKind b) k) [Bond 0 3 2 [5; 7]%Z]) < 2) by (intros k; cbn [List.filter]; destruct (Nat.eqb _ _); cbn; lia).
  repeat (apply Forall_cons; split; [cbn [gpX gpCap xp_of xpCap xpGCap]; split; [lia|split; [lia|exact H]]|]). constructor.
Qed.
Lemma populatedb cap : populated Gb (map gpX (sysb cap)).
Proof.
  intros b id Hb Hid. apply elem_of_list_singleton in Hb. subst b. rewrite heldb. cbn [bAtoms] in Hid. rewrite !elem_of_cons, elem_of_nil in Hid. destruct Hid as [->|[->|[]]].
  - exists (0, at_ 5 qA). split; [elem|done].
  - exists (1, at_ 7 qB). split; [elem|done].
Qed.
(** Hypotheses of [groups_complete], with slabs wider than the bond is long, and of [bonds_complete], with narrower ones. *)
Example ex_close : group_system dims2 Gb (sysb 2) /\ displaced dims2 mb (map gpX (sysb 2)) /\ slabs dims2 mb eb /\ room Gb (sysb 2) /\ populated Gb (map gpX (sysb 2)) /\ close dims2 eb Gb (map gpX (sysb 2)).
Proof.
  split; [apply systemb|]. split; [apply displacedb|]. split; [apply slabsb|]. split; [apply roomb|]. split; [apply populatedb|].
  intros b u v _ Hu Hv _ _. rewrite heldb in Hu, Hv. rewrite !elem_of_cons, elem_of_nil in Hu, Hv.
  destruct Hu as [->|[->|[]]], Hv as [->|[->|[]]]; [exists (V3 0 0 0)%Z|exists (V3 1 0 0)%Z|exists (V3 (-1) 0 0)%Z|exists (V3 0 0 0)%Z]; intros i Hi _; axes i Hi; cbn [vget vx vy vz translate snd at_ xPos qA qB eb]; rabs.
Qed.
Definition Wa (id : Z) : vec3 R := if decide (id = 5)%Z then qA else qB1.
Definition Wb (id : Z) : vec3 R := if decide (id = 5)%Z then qA1 else qB.
Ltac wb := change (Wa 5%Z) with qA; change (Wa 7%Z) with qB1; change (Wb 5%Z) with qA1; change (Wb 7%Z) with qB.
Lemma placedb cap : Forall (fun q => Forall (placed dims2 sb eb (map gpX (sysb cap)) q) (gpGroups q)) (sysb cap).
Proof.
  unfold sysb at 2. apply Forall_cons. split; [|apply Forall_singleton]; apply Forall_singleton.
  - exists Wa. split; [|split].
    + intros id Hid. rewrite heldb. cbn [the_bond gAtoms] in Hid. rewrite !elem_of_cons, elem_of_nil in Hid. destruct Hid as [->|[->|[]]]; wb.
      * exists (0, at_ 5 qA), (V3 0 0 0)%Z. split; [elem|]. split; [done|]. unfold translate. cbn [snd at_ xPos]. unfold qA. cbn [vx vy vz]. f_equal; lra.
      * exists (1, at_ 7 qB), (V3 (-1) 0 0)%Z. split; [elem|]. split; [done|]. unfold translate. cbn [snd at_ xPos]. unfold qB, qB1. cbn [vx vy vz]. f_equal; lra.
    + intros k id h Hk Hh. unfold points in Hh. two k; cbn in Hk, Hh; injection Hk as <-; injection Hh as <-; (split; [done|]); intros _ i Hi _; wb; axes i Hi; cbn [gp_of gpX xp_of xpMem nth app vget vx vy vz at_ xPos qA qB1 sb]; rabs.
    + intros id id' i Hid Hid' Hi _. cbn [the_bond gAtoms] in Hid, Hid'. rewrite !elem_of_cons, elem_of_nil in Hid, Hid'. destruct Hid as [->|[->|[]]], Hid' as [->|[->|[]]]; wb; axes i Hi; cbn [vget vx vy vz qA qB1 eb]; rabs.
  - exists Wb. split; [|split].
    + intros id Hid. rewrite heldb. cbn [the_bond gAtoms] in Hid. rewrite !elem_of_cons, elem_of_nil in Hid. destruct Hid as [->|[->|[]]]; wb.
      * exists (0, at_ 5 qA), (V3 1 0 0)%Z. split; [elem|]. split; [done|]. unfold translate. cbn [snd at_ xPos]. unfold qA, qA1. cbn [vx vy vz]. f_equal; lra.
      * exists (1, at_ 7 qB), (V3 0 0 0)%Z. split; [elem|]. split; [done|]. unfold translate. cbn [snd at_ xPos]. unfold qB. cbn [vx vy vz]. f_equal; lra.
    + intros k id h Hk Hh. unfold points in Hh. two k; cbn in Hk, Hh; injection Hk as <-; injection Hh as <-; (split; [done|]); intros _ i Hi _; wb; axes i Hi; cbn [gp_of gpX xp_of xpMem nth app vget vx vy vz at_ xPos qA1 qB sb]; rabs.
    + intros id id' i Hid Hid' Hi _. cbn [the_bond gAtoms] in Hid, Hid'. rewrite !elem_of_cons, elem_of_nil in Hid, Hid'. destruct Hid as [->|[->|[]]], Hid' as [->|[->|[]]]; wb; axes i Hi; cbn [vget vx vy vz qA1 qB eb]; rabs.
Qed.
Example ex_bonds : group_system dims2 Gb (sysb 2) /\ displaced dims2 mb (map gpX (sysb 2)) /\ slabs dims2 mb sb /\ room Gb (sysb 2) /\ populated Gb (map gpX (sysb 2)) /\
  (forall i, i < 3 -> (vget mb i < vget sb i)%R) /\ (forall i, i < 3 -> (vget eb i + vget mb i < width dims2 i)%R) /\
  Forall (fun q => Forall (placed dims2 sb eb (map gpX (sysb 2)) q) (gpGroups q)) (sysb 2) /\ Forall (fun b => length (bAtoms b) <= 2) Gb /\ ~ close dims2 sb Gb (map gpX (sysb 2)).
Proof.
  split; [apply systemb|]. split; [apply displacedb|]. split; [apply slabsb|]. split; [apply roomb|]. split; [apply populatedb|].
  split; [intros i Hi; axes i Hi; cbn [vget vx vy vz mb sb]; lra|]. split; [intros i Hi; axes i Hi; unfold width; cbn [vget vx vy vz mb eb dims2]; lra|]. split; [|split].
  - apply placedb.
  - apply Forall_singleton. cbn. lia.
  - intros HC. destruct (HC (Bond 0 3 2 [5; 7]%Z) (0, at_ 5 qA) (1, at_ 7 qB)) as [k Hk]; [by left|rewrite heldb; elem|rewrite heldb; elem|cbn; elem|cbn; elem|].
    specialize (Hk 0 ltac:(lia) ltac:(done)). cbn [vget vx vy vz translate snd at_ xPos qA qB sb] in Hk. apply Rabs_def2 in Hk as [K1 K2].
    assert (X1 : (0 < IZR (vx k))%R) by lra. assert (X2 : (IZR (vx k) < 1)%R) by lra. apply lt_IZR in X1, X2. lia.
Qed.
Example ex_run : exists sys2, gexchange sb (sysb 2) = Ok sys2 /\ group_system dims2 Gb sys2 /\ Forall points_all sys2.
Proof.
  destruct ex_bonds as (H1 & H2 & H3 & H4 & H5 & H6 & H7 & H8 & H9 & _). destruct (bonds_complete dims2 mb sb eb Gb (sysb 2) H1 H2 H3 H4 H5 H6 H7 H8 H9) as [sys2 H]. exists sys2. split; [done|]. by apply (groups_kept dims2 Gb sb (sysb 2)).
Qed.
(** Room for all groups is not enough: a record for the group that arrives is taken from the storage before it is known that the group is here already. *)
Definition planQ : plan := setGhost (setExchange (clearFlags 0%N) 0 0) 0 1.
Ltac plan2 HB := unfold setp, at_plan; cbn [at_ xId xType xPos xForce xRest]; rewrite (plan_atom_eq _ _ _ _ _ HB); cbn [fold_left vget vx vy vz sb qA qB]; cbv zeta; rdec; reflexivity.
Lemma setQ : setp sb (dom2 0) (at_ 5 qA) = at_plan 5 qA planQ.
Proof. plan2 boundsb0. Qed.
Lemma setR : setp sb (dom2 1) (at_ 7 qB) = at_plan 7 qB (clearFlags 0%N).
Proof. plan2 boundsb1. Qed.

Ltac span2 HB i := rewrite (spans_eq _ _ _ _ _ _ _ _ _ (proj1 (HB i ltac:(lia))) (proj2 (HB i ltac:(lia)))); cbn [ptrs the_bond gPtrs omap list_omap existsb]; edec; cbn [nth app vget vx vy vz sb qA qB qA1 qB1 at_plan at_ xPos xPlan]; flags; cbv zeta; rdec; vm_compute; reflexivity.
Definition plan0 : plan := clearGhost (clearGhost (clearFlags 0%N) 0 0) 0 1.
Definition plan0' : plan := setGhost (clearGhost (clearFlags 0%N) 0 0) 0 1.
Lemma markQ : mark_group (dom2 0) sb (fun h => nth h ([at_plan 5 qA planQ] ++ [at_ 7 qB1]) dfl) [1] (the_bond [Some 0; Some 1]) = GG 0 3 2 [5; 7]%Z [Some 0; None] plan0.
Proof.
  set (mem := fun h => nth h _ _). assert (S00 : spans (dom2 0) sb mem [1] 0 0 (the_bond [Some 0; Some 1]) = false) by (unfold mem; span2 boundsb0 0).
  assert (S01 : spans (dom2 0) sb mem [1] 0 1 (the_bond [Some 0; Some 1]) = false) by (unfold mem; span2 boundsb0 0).
  unfold mark_group, group_plan. cbn [dirs fold_left fst snd]. change (xflag (dom2 0) 0) with true. change (xflag (dom2 0) 1) with false. change (xflag (dom2 0) 2) with false. change (is_complete (the_bond [Some 0; Some 1])) with true.
  cbv iota. rewrite S00, S01. reflexivity.
Qed.
Lemma markR : mark_group (dom2 1) sb (fun h => nth h ([at_plan 7 qB (clearFlags 0%N)] ++ [at_ 5 qA1]) dfl) [1] (the_bond [Some 1; Some 0]) = GG 0 3 2 [5; 7]%Z [None; Some 0] plan0'.
Proof.
  set (mem := fun h => nth h _ _). assert (S00 : spans (dom2 1) sb mem [1] 0 0 (the_bond [Some 1; Some 0]) = false) by (unfold mem; span2 boundsb1 0).
  assert (S01 : spans (dom2 1) sb mem [1] 0 1 (the_bond [Some 1; Some 0]) = true) by (unfold mem; span2 boundsb1 0).
  unfold mark_group, group_plan. cbn [dirs fold_left fst snd]. change (xflag (dom2 1) 0) with true. change (xflag (dom2 1) 1) with false. change (xflag (dom2 1) 2) with false. change (is_complete (the_bond [Some 1; Some 0])) with true.
  cbv iota. rewrite S00, S01. reflexivity.
Qed.
Theorem groups_fit_refuted : ~ (forall dims m s e G sys, group_system dims G sys -> displaced dims m (map gpX sys) -> slabs dims m s -> populated G (map gpX sys) ->
  (forall i, i < 3 -> (vget m i < vget s i)%R) -> (forall i, i < 3 -> (vget e i + vget m i < width dims i)%R) ->
  Forall (fun q => Forall (placed dims s e (map gpX sys) q) (gpGroups q)) sys ->
  Forall (fun q => length (held (map gpX sys)) <= xpCap (gpX q) /\ 27 * length (held (map gpX sys)) <= xpGCap (gpX q) /\ forall k, of_kind k G <= gpCap q k) sys -> exists sys1, gexchangeAtoms s sys = Ok sys1).
Proof.
  intros HA. destruct ex_bonds as (_ & _ & H3 & _ & _ & H6 & H7 & _).
  destruct (HA dims2 mb sb eb Gb (sysb 1) (systemb 1) (displacedb 1) H3 (populatedb 1) H6 H7) as [sys1 H1].
  - apply placedb.
  - rewrite heldb. unfold sysb, gp_of, Gb, of_kind. cbn [length].
    assert (H : forall k, length (List.filter (fun b => Nat.eqb (bKind b) k) [Bond 0 3 2 [5; 7]%Z]) <= 1) by (intros k; cbn [List.filter]; destruct (Nat.eqb _ _); cbn; lia).
    repeat (apply Forall_cons; split; [cbn [gpX gpCap xp_of xpCap xpGCap]; split; [lia|split; [lia|exact H]]|]). constructor.
  - assert (HT : gexchangeAtoms sb (sysb 1) = Throw); [|congruence]. unfold gexchangeAtoms, sysb. cbn [map]. rewrite !gstart_gp. cbn [map length seq]. rewrite setQ, setR. rewrite markQ, markR. vm_compute. reflexivity.
Qed.

Print Assumptions groups_exchanged.
Print Assumptions groups_kept.
Print Assumptions group_atoms_complete.
Print Assumptions groups_fit_refuted.
Print Assumptions groups_complete.
Print Assumptions bonds_complete.
Print Assumptions angles_complete_refuted.
Print Assumptions group_images.
Print Assumptions group_images_once.
