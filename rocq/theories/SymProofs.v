(** Lemmas about groups of integer matrices. *)
From Verif Require Import Base Vec3 SymModel SymSpec.
Local Open Scope Z_scope.

Local Instance vec3_eq_dec {A} `{EqDecision A} : EqDecision (vec3 A).
Proof. intros [a b c] [d e f]. destruct (decide (a = d)), (decide (b = e)), (decide (c = f)); subst; [left; done|right; congruence..]. Defined.

Lemma smul_eq A B : smul A B = product A B.
Proof. destruct A as [[a b c] [d e f] [g h i]], B as [[a' b' c'] [d' e' f'] [g' h' i']]. reflexivity. Qed.
Lemma vmulr_eq v A : vmulr v A = row_times v A.
Proof. destruct A as [[a b c] [d e f] [g h i]], v as [x y z]. reflexivity. Qed.
Lemma sym_eqb_iff A B : sym_eqb A B = true <-> A = B.
Proof.
  destruct A as [[a b c] [d e f] [g h i]], B as [[a' b' c'] [d' e' f'] [g' h' i']]. unfold sym_eqb, ent. cbn [forallb vget vx vy vz].
  rewrite !andb_true_r, !andb_true_iff, !Z.eqb_eq. split; [intros ((?&?&?)&(?&?&?)&(?&?&?)); by subst|]. intros [= -> -> -> -> -> -> -> -> ->]. repeat split.
Qed.
Lemma gfind_iff A l : gfind A l = true <-> A ∈ l.
Proof.
  unfold gfind. rewrite existsb_exists. split.
  - intros (B & HB & E%sym_eqb_iff). subst. by apply elem_of_list_In.
  - intros H. exists A. split; [by apply elem_of_list_In|by apply sym_eqb_iff].
Qed.
Lemma gadd_spec l A : (A ∈ l /\ gadd l A = (l, false)) \/ (A ∉ l /\ gadd l A = (l ++ [A], true)).
Proof.
  unfold gadd. destruct (gfind A l) eqn:E; [left|right].
  - by apply gfind_iff in E.
  - split; [|done]. intros H%gfind_iff. congruence.
Qed.
Lemma product_assoc A B C : product A (product B C) = product (product A B) C.
Proof. destruct A as [[a b c] [d e f] [g h i]], B as [[a' b' c'] [d' e' f'] [g' h' i']], C as [[a'' b'' c''] [d'' e'' f''] [g'' h'' i'']]. unfold product, row_times, row_dot, column. cbn [vx vy vz vget]. f_equal; f_equal; ring. Qed.
Lemma product_1_l A : product unit_matrix A = A.
Proof. destruct A as [[a b c] [d e f] [g h i]]. unfold product, row_times, row_dot, column, unit_matrix. cbn [vx vy vz vget]. f_equal; f_equal; ring. Qed.
Lemma product_1_r A : product A unit_matrix = A.
Proof. destruct A as [[a b c] [d e f] [g h i]]. unfold product, row_times, row_dot, column, unit_matrix. cbn [vx vy vz vget]. f_equal; f_equal; ring. Qed.

(** * The 48 rotations and reflections of a cube *)
Definition units : list (vec3 Z) := [V3 1 0 0; V3 (-1) 0 0; V3 0 1 0; V3 0 (-1) 0; V3 0 0 1; V3 0 0 (-1)].
Definition orthb (A : mat) : bool :=
  (row_dot (vx A) (vx A) =? 1) && (row_dot (vy A) (vy A) =? 1) && (row_dot (vz A) (vz A) =? 1) &&
  (row_dot (vx A) (vy A) =? 0) && (row_dot (vx A) (vz A) =? 0) && (row_dot (vy A) (vz A) =? 0).
Lemma orthb_iff A : orthb A = true <-> orthogonal A.
Proof. unfold orthb, orthogonal. rewrite !andb_true_iff, !Z.eqb_eq. tauto. Qed.
Definition rots : list mat := List.filter orthb (a ← units; b ← units; c ← units; [V3 a b c]).
Lemma unit_row v : row_dot v v = 1 -> v ∈ units.
Proof.
  destruct v as [x y z]. unfold row_dot. cbn [vx vy vz]. intros H. unfold units.
  assert (x = -1 \/ x = 0 \/ x = 1) as Hx by nia. assert (y = -1 \/ y = 0 \/ y = 1) as Hy by nia. assert (z = -1 \/ z = 0 \/ z = 1) as Hz by nia.
  destruct Hx as [-> |[-> | ->]], Hy as [-> |[-> | ->]], Hz as [-> |[-> | ->]]; try lia; rewrite !elem_of_cons; tauto.
Qed.
Lemma rots_iff A : A ∈ rots <-> orthogonal A.
Proof.
  unfold rots. rewrite elem_of_list_In, filter_In, orthb_iff. split; [by intros [_ ?]|]. intros H. split; [|done].
  destruct A as [a b c]. destruct H as (H1 & H2 & H3 & _). cbn [vx vy vz] in *. apply elem_of_list_In.
  apply elem_of_list_bind. exists a. split; [|by apply unit_row]. apply elem_of_list_bind. exists b. split; [|by apply unit_row].
  apply elem_of_list_bind. exists c. split; [left|by apply unit_row].
Qed.
Lemma rots_length : length rots = 48%nat. Proof. reflexivity. Qed.
Lemma rots_product A B : A ∈ rots -> B ∈ rots -> product A B ∈ rots.
Proof.
  assert (H : forallb (fun A => forallb (fun B => gfind (product A B) rots) rots) rots = true) by (vm_compute; done).
  intros HA HB. rewrite forallb_forall in H. specialize (H A ltac:(by apply elem_of_list_In)). rewrite forallb_forall in H.
  apply gfind_iff, H. by apply elem_of_list_In.
Qed.
Lemma rots_inverse A : A ∈ rots -> sinv A ∈ rots /\ product A (sinv A) = unit_matrix /\ product (sinv A) A = unit_matrix.
Proof.
  assert (H : forallb (fun A => gfind (sinv A) rots && sym_eqb (product A (sinv A)) unit_matrix && sym_eqb (product (sinv A) A) unit_matrix) rots = true) by (vm_compute; done).
  intros HA. rewrite forallb_forall in H. specialize (H A ltac:(by apply elem_of_list_In)). rewrite !andb_true_iff, gfind_iff, !sym_eqb_iff in H. tauto.
Qed.
Lemma inverse_unique A B : A ∈ rots -> product A B = unit_matrix -> B = sinv A.
Proof.
  intros HA E. destruct (rots_inverse A HA) as (_ & _ & E'). rewrite <- (product_1_l B), <- E', <- product_assoc, E. apply product_1_r.
Qed.

(** * Passes *)
Lemma fold_prod {S X Y} (f : S -> X -> Y -> S) (l1 : list X) (l2 : list Y) s :
  fold_left (fun s x => fold_left (fun s y => f s x y) l2 s) l1 s = fold_left (fun s p => f s (fst p) (snd p)) (list_prod l1 l2) s.
Proof.
  revert s. induction l1 as [|x l1 IH]; intros s; cbn [fold_left list_prod]; [done|]. rewrite fold_left_app, IH. f_equal.
  clear. revert s. induction l2 as [|y l2 IH]; intros s; cbn [fold_left map]; [done|]. rewrite IH. done.
Qed.
Definition pstep (s : group * bool) (p : mat * mat) : group * bool :=
  let C := smul (fst p) (snd p) in let r := gadd (fst s) C in let q := gadd (fst r) (sinv C) in (fst q, snd s && negb (snd r) && negb (snd q)).
Lemma gpass_eq l : gpass l = fold_left pstep (list_prod l l) (l, true).
Proof. unfold gpass. apply (fold_prod (fun s A B => let C := smul A B in let r := gadd (fst s) C in let q := gadd (fst r) (sinv C) in (fst q, snd s && negb (snd r) && negb (snd q)))). Qed.
Lemma gadd_facts l A :
  l ⊆ (gadd l A).1 /\ A ∈ (gadd l A).1 /\ (NoDup l -> NoDup (gadd l A).1) /\ (forall B, B ∈ (gadd l A).1 -> B ∈ l \/ B = A) /\
  ((gadd l A).2 = false -> (gadd l A).1 = l) /\ ((gadd l A).2 = true -> length l < length (gadd l A).1)%nat /\ (length l <= length (gadd l A).1)%nat.
Proof.
  destruct (gadd_spec l A) as [[H ->]|[H ->]]; cbn [fst snd].
  - split; [done|]. split; [done|]. split; [done|]. split; [tauto|]. split; [done|]. split; [done|lia].
  - rewrite app_length. cbn [length]. split; [intros x Hx; apply elem_of_app; by left|]. split; [apply elem_of_app; right; left|].
    split; [|split; [|split; [done|lia]]].
    + intros HN. apply NoDup_app. split; [done|]. split; [|apply NoDup_singleton]. intros x Hx ->%elem_of_list_singleton. done.
    + intros B [| ->%elem_of_list_singleton]%elem_of_app; auto.
Qed.
Lemma pass_facts ps : forall s, let r := fold_left pstep ps s in
  s.1 ⊆ r.1 /\ (forall p, p ∈ ps -> product p.1 p.2 ∈ r.1 /\ sinv (product p.1 p.2) ∈ r.1) /\ (NoDup s.1 -> NoDup r.1) /\
  (forall B, B ∈ r.1 -> B ∈ s.1 \/ exists p, p ∈ ps /\ (B = product p.1 p.2 \/ B = sinv (product p.1 p.2))) /\
  (r.2 = true -> s.2 = true /\ r.1 = s.1) /\ (s.2 = true -> r.2 = false -> length s.1 < length r.1)%nat /\ (length s.1 <= length r.1)%nat.
Proof.
  induction ps as [|p ps IH]; intros s; cbn [fold_left].
  - split; [done|]. split; [intros p Hp; by apply elem_of_nil in Hp|]. split; [done|]. split; [auto|]. split; [done|]. split; [congruence|lia].
  - destruct (IH (pstep s p)) as (I1 & I2 & I3 & I4 & I5 & I6 & I7). clear IH.
    set (C := smul p.1 p.2) in *. destruct (gadd_facts s.1 C) as (A1 & A2 & A3 & A4 & A5 & A6 & A7).
    destruct (gadd_facts (gadd s.1 C).1 (sinv C)) as (B1 & B2 & B3 & B4 & B5 & B6 & B7).
    assert (E1 : (pstep s p).1 = (gadd (gadd s.1 C).1 (sinv C)).1) by done.
    assert (E2 : (pstep s p).2 = s.2 && negb (gadd s.1 C).2 && negb (gadd (gadd s.1 C).1 (sinv C)).2) by done.
    rewrite E1 in *. rewrite E2 in *. assert (EC : C = product p.1 p.2) by apply smul_eq.
    split; [by etransitivity; [|exact I1]; etransitivity|]. split; [|split; [|split; [|split; [|split]]]].
    + intros q [-> |Hq]%elem_of_cons; [|by apply I2]. rewrite <- EC. split; [by apply I1, B1|by apply I1].
    + auto.
    + intros B HB. destruct (I4 B HB) as [HB'|(q & Hq & ?)].
      * destruct (B4 B HB') as [HB''| ->]; [destruct (A4 B HB'') as [? | ->]; [by left|]|]; right; exists p; (split; [left|]); rewrite <- EC; auto.
      * right. exists q. split; [by right|done].
    + intros HT. destruct (I5 HT) as [HT' HL]. rewrite !andb_true_iff, !negb_true_iff in HT'. destruct HT' as [[HT1 HT2] HT3]. split; [done|].
      rewrite HL, B5, A5 by done. done.
    + intros HT HF. rewrite HT in I6, I5. destruct (gadd s.1 C).2 eqn:F1; [specialize (A6 eq_refl); lia|].
      destruct (gadd (gadd s.1 C).1 (sinv C)).2 eqn:F2; [specialize (B6 eq_refl); lia|]. specialize (I6 eq_refl HF). lia.
    + lia.
Qed.
Lemma in_prod_iff' {X Y} (l1 : list X) (l2 : list Y) x y : (x, y) ∈ list_prod l1 l2 <-> x ∈ l1 /\ y ∈ l2.
Proof. rewrite !elem_of_list_In. apply in_prod_iff. Qed.

Lemma gloop_closed fuel : forall l l', gloop fuel l = Some l' ->
  l ⊆ l' /\ (forall A B, A ∈ l' -> B ∈ l' -> product A B ∈ l' /\ sinv (product A B) ∈ l') /\ (NoDup l -> NoDup l').
Proof.
  induction fuel as [|f IH]; intros l l'; cbn [gloop]; [done|]. rewrite gpass_eq.
  destruct (pass_facts (list_prod l l) (l, true)) as (I1 & I2 & I3 & _ & I5 & _ & _). cbn [fst snd] in I1, I3, I5.
  destruct (snd (fold_left _ _ _)) eqn:E.
  - intros [= <-]. destruct (I5 eq_refl) as [_ EL]. rewrite EL in *. split; [done|]. split; [|done]. intros A B HA HB. apply (I2 (A, B)). by apply in_prod_iff'.
  - intros H. destruct (IH _ _ H) as (J1 & J2 & J3). split; [by etransitivity|]. split; [done|auto].
Qed.
Lemma gloop_mono f : forall f' l r, gloop f l = Some r -> (f <= f')%nat -> gloop f' l = Some r.
Proof.
  induction f as [|f IH]; intros [|f'] l r H Hf; cbn [gloop] in *; try done; [lia|]. destruct (snd (gpass l)); [done|]. apply IH; [done|lia].
Qed.
(** Any predicate closed under the operations holds for the result. *)
Lemma gloop_only (P : mat -> Prop) : (forall A B, P A -> P B -> P (product A B)) -> (forall A, P A -> P (sinv A)) ->
  forall fuel l l', gloop fuel l = Some l' -> (forall A, A ∈ l -> P A) -> forall A, A ∈ l' -> P A.
Proof.
  intros HP HI. assert (HS : forall l, (forall A, A ∈ l -> P A) -> forall A, A ∈ (gpass l).1 -> P A).
  { intros l Hl A. rewrite gpass_eq. destruct (pass_facts (list_prod l l) (l, true)) as (_ & _ & _ & I4 & _). intros HA.
    destruct (I4 A HA) as [?|([B C] & [HB HC]%in_prod_iff' & [-> | ->])]; cbn [fst snd]; auto. }
  induction fuel as [|f IH]; intros l l'; cbn [gloop]; [done|]. destruct (snd (gpass l)); [by intros [= <-]; apply HS|]. intros H Hl. apply (IH _ _ H). by apply HS.
Qed.
Lemma rots_bound (l : group) : NoDup l -> (forall A, A ∈ l -> A ∈ rots) -> (length l <= 48)%nat.
Proof. intros HN HS. rewrite <- rots_length. apply submseteq_length. by apply NoDup_submseteq. Qed.
Lemma gloop_ends fuel : forall l, NoDup l -> (forall A, A ∈ l -> A ∈ rots) -> (48 < fuel + length l)%nat -> exists l', gloop fuel l = Some l'.
Proof.
  induction fuel as [|f IH]; intros l HN HS Hf.
  - pose proof (rots_bound l HN HS). lia.
  - cbn [gloop]. rewrite gpass_eq. destruct (pass_facts (list_prod l l) (l, true)) as (I1 & I2 & I3 & I4 & I5 & I6 & I7). cbn [fst snd] in *.
    destruct (snd (fold_left _ _ _)) eqn:E; [eauto|]. apply IH; [auto| |specialize (I6 eq_refl eq_refl); lia].
    intros A HA. destruct (I4 A HA) as [?|([B C] & [HB HC]%in_prod_iff' & [-> | ->])]; cbn [fst snd]; [auto|apply rots_product; auto|].
    apply rots_inverse, rots_product; auto.
Qed.
Lemma inverses_facts l0 : forall l, let r := fold_left (fun l' A => fst (gadd l' (sinv A))) l0 l in
  l ⊆ r /\ (forall A, A ∈ l0 -> sinv A ∈ r) /\ (NoDup l -> NoDup r) /\ (forall B, B ∈ r -> B ∈ l \/ exists A, A ∈ l0 /\ B = sinv A).
Proof.
  induction l0 as [|A l0 IH]; intros l; cbn [fold_left].
  - split; [done|]. split; [intros A HA; by apply elem_of_nil in HA|]. split; auto.
  - destruct (IH (gadd l (sinv A)).1) as (I1 & I2 & I3 & I4). destruct (gadd_facts l (sinv A)) as (A1 & A2 & A3 & A4 & _).
    split; [by etransitivity|]. split; [intros B [-> |HB]%elem_of_cons; auto|]. split; [auto|].
    intros B HB. destruct (I4 B HB) as [HB'|(C & HC & ->)]; [destruct (A4 B HB') as [?| ->]; [by left|]|]; right; [exists A|exists C]; (split; [|done]); [left|by right].
Qed.
Lemma adds_facts gens : forall l, let r := fold_left (fun l A => fst (gadd l A)) gens l in
  l ⊆ r /\ gens ⊆ r /\ (NoDup l -> NoDup r) /\ (forall B, B ∈ r -> B ∈ l \/ B ∈ gens).
Proof.
  induction gens as [|A gens IH]; intros l; cbn [fold_left].
  - split; [done|]. split; [intros A HA; by apply elem_of_nil in HA|]. split; auto.
  - destruct (IH (gadd l A).1) as (I1 & I2 & I3 & I4). destruct (gadd_facts l A) as (A1 & A2 & A3 & A4 & _).
    split; [by etransitivity|]. split; [intros B [-> |HB]%elem_of_cons; auto|]. split; [auto|].
    intros B HB. destruct (I4 B HB) as [HB'|?]; [destruct (A4 B HB') as [?| ->]; [by left|]|]; right; [left|by right].
Qed.

Lemma ivec_eqb_iff u v : ivec_eqb u v = true <-> u = v.
Proof. unfold ivec_eqb. destruct u as [a b c], v as [d e f]. cbn [vx vy vz]. rewrite !andb_true_iff, !Z.eqb_eq. split; [intros [[-> ->] ->]; done|]. by intros [= -> -> ->]. Qed.
Lemma star_fold root g : forall s, let r := fold_left (fun star A => let v := vmulr root A in if existsb (ivec_eqb v) star then star else star ++ [v]) g s in
  (NoDup s -> NoDup r) /\ (forall v, v ∈ r <-> v ∈ s \/ exists A, A ∈ g /\ v = row_times root A).
Proof.
  induction g as [|A g IH]; intros s; cbn [fold_left].
  - split; [done|]. intros v. split; [auto|]. intros [?|(A & HA & _)]; [done|by apply elem_of_nil in HA].
  - cbv zeta. rewrite vmulr_eq. set (w := row_times root A). destruct (existsb (ivec_eqb w) s) eqn:E.
    + assert (Hw : w ∈ s) by (apply existsb_exists in E as (x & Hx & ->%ivec_eqb_iff); by apply elem_of_list_In).
      destruct (IH s) as [I1 I2]. split; [done|]. intros v. rewrite I2. split.
      * intros [?|(B & HB & ->)]; [by left|right]. exists B. split; [by right|done].
      * intros [?|(B & [-> |HB]%elem_of_cons & ->)]; [by left|by left|right; eauto].
    + assert (Hw : w ∉ s) by (intros H; apply not_true_iff_false in E; apply E, existsb_exists; exists w; split; [by apply elem_of_list_In|by apply ivec_eqb_iff]).
      destruct (IH (s ++ [w])) as [I1 I2]. split.
      * intros HN. apply I1, NoDup_app. split; [done|]. split; [|apply NoDup_singleton]. intros x Hx ->%elem_of_list_singleton. done.
      * intros v. rewrite I2, elem_of_app, elem_of_list_singleton. split.
        -- intros [[?| ->]|(B & HB & ->)]; [by left|right; exists A; split; [left|done]|right; exists B; split; [by right|done]].
        -- intros [?|(B & [-> |HB]%elem_of_cons & ->)]; [by left; left|by left; right|right; eauto].
Qed.
