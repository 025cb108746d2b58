(** The grid of wavevectors of StructureFactorGrid. *)
From Verif Require Import Base Vec3 SymModel SymSpec SymProofs.
Local Open Scope Z_scope.

(** * The three groups *)
Definition build (L : lattice) : option group := makeCompleteGroup 49 (fold_left (fun l A => fst (gadd l A)) (grid_gens L) group_new).
Definition the_group (L : lattice) : group := match build L with Some G => G | None => [] end.
Definition sym_of (L : lattice) : symmetry := match L with Cubic => SCubic | Tetragonal => STetragonal | _ => SOrthorhombic end.
Definition three (L : lattice) : Prop := L = Cubic \/ L = Tetragonal \/ L = Orthorhombic.
Lemma build_eq L fuel : three L -> (49 <= fuel)%nat -> makeCompleteGroup fuel (fold_left (fun l A => fst (gadd l A)) (grid_gens L) group_new) = Some (the_group L).
Proof.
  intros HL Hf. unfold the_group, build, makeCompleteGroup. apply (gloop_mono 49); [|done]. destruct HL as [-> |[-> | ->]]; vm_compute; done.
Qed.
(** * Representatives *)
Definition key (L : lattice) (v : vec3 Z) : vec3 Z :=
  let a := Z.abs (vx v) in let b := Z.abs (vy v) in let c := Z.abs (vz v) in
  match L with
  | Cubic => let M := Z.max a (Z.max b c) in let m := Z.min a (Z.min b c) in V3 M (a + b + c - M - m) m
  | Tetragonal => V3 a (Z.max b c) (Z.min b c)
  | _ => V3 a b c end.
Lemma perm3 a b c d e f :
  Z.max a (Z.max b c) = Z.max d (Z.max e f) -> Z.min a (Z.min b c) = Z.min d (Z.min e f) -> a + b + c = d + e + f -> [a; b; c] ≡ₚ [d; e; f].
Proof.
  intros H1 H2 H3.
  assert (P2 : forall x y, b + c = x + y -> b = x \/ b = y -> [b; c] ≡ₚ [x; y]).
  { intros x y Hs [-> | ->]; [assert (c = y) as -> by lia; done|]. assert (c = x) as -> by lia. constructor. }
  destruct (Z.eq_dec a d) as [-> |N1].
  { constructor. apply P2; [lia|]. destruct (Z.eq_dec b e); [by left|right]. lia. }
  destruct (Z.eq_dec a e) as [-> |N2].
  { transitivity [e; d; f]; [|constructor]. constructor. apply P2; [lia|]. destruct (Z.eq_dec b d); [by left|right]. lia. }
  destruct (Z.eq_dec a f) as [-> |N3]; [|exfalso; lia].
  transitivity [f; d; e]; [|transitivity [d; f; e]; [constructor|]; constructor; constructor]. constructor. apply P2; [lia|]. destruct (Z.eq_dec b d); [by left|right]. lia.
Qed.
Lemma in3 (x a b c : Z) : x ∈ [a; b; c] -> x = a \/ x = b \/ x = c.
Proof. intros H. apply elem_of_cons in H as [?|H]; [tauto|]. apply elem_of_cons in H as [?|H]; [tauto|]. apply elem_of_list_singleton in H. tauto. Qed.
Lemma perm3_inv a b c d e f : [a; b; c] ≡ₚ [d; e; f] ->
  Z.max a (Z.max b c) = Z.max d (Z.max e f) /\ Z.min a (Z.min b c) = Z.min d (Z.min e f) /\ a + b + c = d + e + f.
Proof.
  intros H. assert (Ha : a ∈ [d; e; f]) by (rewrite <- H; left). assert (Hb : b ∈ [d; e; f]) by (rewrite <- H; right; left). assert (Hc : c ∈ [d; e; f]) by (rewrite <- H; right; right; left).
  assert (Hd : d ∈ [a; b; c]) by (rewrite H; left). assert (He : e ∈ [a; b; c]) by (rewrite H; right; left). assert (Hf : f ∈ [a; b; c]) by (rewrite H; right; right; left).
  apply in3 in Ha, Hb, Hc, Hd, He, Hf.
  assert (HS : foldr Z.add 0 [a; b; c] = foldr Z.add 0 [d; e; f]) by (clear - H; induction H; cbn [foldr] in *; lia). cbn [foldr] in HS.
  split; [clear - Ha Hb Hc Hd He Hf|split; [clear - Ha Hb Hc Hd He Hf|lia]].
  - apply Z.le_antisymm; repeat apply Z.max_lub; clear - Ha Hb Hc Hd He Hf; [clear -Ha|clear -Hb|clear -Hc|clear -Hd|clear -He|clear -Hf]; lia.
  - apply Z.le_antisymm; repeat apply Z.min_glb; [clear -Hd|clear -He|clear -Hf|clear -Ha|clear -Hb|clear -Hc]; lia.
Qed.
Lemma perm2 (a b d e : Z) : [a; b] ≡ₚ [d; e] <-> Z.max a b = Z.max d e /\ Z.min a b = Z.min d e.
Proof.
  split.
  - intros H. assert (Ha : a ∈ [d; e]) by (rewrite <- H; left). assert (Hb : b ∈ [d; e]) by (rewrite <- H; right; left).
    assert (Hd : d ∈ [a; b]) by (rewrite H; left). assert (He : e ∈ [a; b]) by (rewrite H; right; left). rewrite !elem_of_cons, elem_of_nil in *. lia.
  - intros [H1 H2]. assert ((a = d /\ b = e) \/ (a = e /\ b = d)) as [[-> ->]|[-> ->]] by lia; [done|constructor].
Qed.
Lemma key_iff L v w : three L -> equivalent (sym_of L) v w <-> key L w = key L v.
Proof.
  destruct v as [a b c], w as [d e f]. intros [-> |[-> | ->]]; unfold sym_of, equivalent, key; cbn [vx vy vz].
  - split.
    + intros (H1 & H2 & H3)%perm3_inv. rewrite H1, H2, H3. done.
    + intros [= H1 H2 H3]. apply perm3; lia.
  - rewrite perm2. split; [intros (-> & -> & ->); done|]. by intros [= -> -> ->].
  - split; [intros (-> & -> & ->); done|]. by intros [= -> -> ->].
Qed.
(** * Stars *)
Lemma row_product g A B : row_times (row_times g A) B = row_times g (product A B).
Proof. destruct g as [x y z], A as [[a b c] [d e f] [k h i]], B as [[a' b' c'] [d' e' f'] [g' h' i']]. unfold product, row_times, row_dot, column. cbn [vx vy vz vget]. f_equal; ring. Qed.
Lemma row_unit g : row_times g unit_matrix = g.
Proof. destruct g as [x y z]. unfold row_times, row_dot, column, unit_matrix. cbn [vx vy vz vget]. f_equal; ring. Qed.
Lemma row_is x y z A a b c : V3 (x * ent A 0 0 + y * ent A 1 0 + z * ent A 2 0) (x * ent A 0 1 + y * ent A 1 1 + z * ent A 2 1) (x * ent A 0 2 + y * ent A 1 2 + z * ent A 2 2) = V3 a b c ->
  row_times (V3 x y z) A = V3 a b c.
Proof. intros <-. destruct A as [[? ? ?] [? ? ?] [? ? ?]]. reflexivity. Qed.
Lemma key_neg_x L x y z : key L (V3 (- x) y z) = key L (V3 x y z). Proof. unfold key. cbn [vx vy vz]. by rewrite Z.abs_opp. Qed.
Lemma key_neg_y L x y z : key L (V3 x (- y) z) = key L (V3 x y z). Proof. unfold key. cbn [vx vy vz]. by rewrite Z.abs_opp. Qed.
Lemma key_neg_z L x y z : key L (V3 x y (- z)) = key L (V3 x y z). Proof. unfold key. cbn [vx vy vz]. by rewrite Z.abs_opp. Qed.
Lemma key_xzy x y z : key Tetragonal (V3 x z y) = key Tetragonal (V3 x y z).
Proof. unfold key. cbn [vx vy vz]. by rewrite Z.max_comm, Z.min_comm. Qed.
Lemma key_yxz x y z : key Cubic (V3 y x z) = key Cubic (V3 x y z).
Proof. unfold key. cbn [vx vy vz]. generalize (Z.abs x), (Z.abs y), (Z.abs z). intros a b c. f_equal; lia. Qed.
Lemma key_zxy x y z : key Cubic (V3 z x y) = key Cubic (V3 x y z).
Proof. unfold key. cbn [vx vy vz]. generalize (Z.abs x), (Z.abs y), (Z.abs z). intros a b c. f_equal; lia. Qed.
Lemma key_row L g A : three L -> A ∈ the_group L -> key L (row_times g A) = key L g.
Proof.
  intros HL HA. pose proof (build_eq L 49 HL ltac:(lia)) as HB. unfold makeCompleteGroup in HB.
  pose (P := fun A => A ∈ rots /\ forall g, key L (row_times g A) = key L g).
  assert (PI : forall A, P A -> P (sinv A)).
  { intros B [H1 H2]. destruct (rots_inverse B H1) as (H3 & _ & H4). split; [done|]. intros h. rewrite <- (H2 (row_times h (sinv B))), row_product, H4, row_unit. done. }
  assert (PG : forall A, A ∈ sid :: grid_gens L -> P A).
  { intros B HB'. apply elem_of_cons in HB' as [-> |HB'].
    { split; [apply (rots_iff unit_matrix); vm_compute; tauto|]. intros h. change sid with unit_matrix. by rewrite row_unit. }
    split; [apply rots_iff; destruct HL as [-> |[-> | ->]]; cbn [grid_gens] in HB'; rewrite !elem_of_cons, elem_of_nil in HB'; destruct HB' as [-> |[-> |[-> |[]]]]; vm_compute; tauto|].
    intros [x y z]. destruct HL as [-> |[-> | ->]]; cbn [grid_gens] in HB'; rewrite !elem_of_cons, elem_of_nil in HB'; destruct HB' as [-> |[-> |[-> |[]]]].
    - rewrite (row_is x y z _ z x y) by (unfold ent; cbn [vget vx vy vz]; f_equal; ring). apply key_zxy.
    - rewrite (row_is x y z _ (- x) y z) by (unfold ent; cbn [vget vx vy vz]; f_equal; ring). apply key_neg_x.
    - rewrite (row_is x y z _ y x z) by (unfold ent; cbn [vget vx vy vz]; f_equal; ring). apply key_yxz.
    - rewrite (row_is x y z _ x (- y) z) by (unfold ent; cbn [vget vx vy vz]; f_equal; ring). apply key_neg_y.
    - rewrite (row_is x y z _ (- x) y z) by (unfold ent; cbn [vget vx vy vz]; f_equal; ring). apply key_neg_x.
    - rewrite (row_is x y z _ x z y) by (unfold ent; cbn [vget vx vy vz]; f_equal; ring). apply key_xzy.
    - rewrite (row_is x y z _ x y (- z)) by (unfold ent; cbn [vget vx vy vz]; f_equal; ring). apply key_neg_z.
    - rewrite (row_is x y z _ x (- y) z) by (unfold ent; cbn [vget vx vy vz]; f_equal; ring). apply key_neg_y.
    - rewrite (row_is x y z _ (- x) y z) by (unfold ent; cbn [vget vx vy vz]; f_equal; ring). apply key_neg_x. }
  apply (gloop_only P) with (A := A) in HB; [by apply HB| |done| |done].
  - intros B C [H1 H2] [H3 H4]. split; [by apply rots_product|]. intros h. by rewrite <- row_product, H4, H2.
  - intros B HB'. destruct (inverses_facts (fold_left (fun l A => fst (gadd l A)) (grid_gens L) group_new) (fold_left (fun l A => fst (gadd l A)) (grid_gens L) group_new)) as (_ & _ & _ & I4).
    destruct (adds_facts (grid_gens L) group_new) as (_ & _ & _ & J4).
    assert (PA : forall C, C ∈ fold_left (fun l A => fst (gadd l A)) (grid_gens L) group_new -> P C).
    { intros C HC. apply PG. destruct (J4 C HC) as [->%elem_of_list_singleton|?]; [left|by right]. }
    destruct (I4 B HB') as [?|(C & HC & ->)]; auto.
Qed.
Definition all_rots (G : group) : bool := forallb (fun A => gfind A G) rots.
Lemma cubic_all_b : all_rots (the_group Cubic) = true. Proof. vm_compute. reflexivity. Qed.
Lemma all_rots_in G A : all_rots G = true -> orthogonal A -> gfind A G = true.
Proof. unfold all_rots. rewrite forallb_forall. intros H HA%rots_iff. apply H. by apply elem_of_list_In. Qed.
Lemma cubic_all A : orthogonal A -> gfind A (the_group Cubic) = true.
Proof. apply all_rots_in, cubic_all_b. Qed.
Lemma row_key L v : three L -> exists A, A ∈ the_group L /\ v = row_times (key L v) A.
Proof.
  destruct v as [x y z]. intros HL.
  assert (HS : forall x, exists s X, (s = 1 \/ s = -1) /\ x = s * X /\ Z.abs x = X /\ 0 <= X) by (intros t; destruct (Z.ltb_spec t 0); [exists (-1), (- t)|exists 1, t]; lia).
  destruct (HS x) as (p & X & Hp & Ex & EX & HX), (HS y) as (q & Y & Hq & Ey & EY & HY), (HS z) as (r & Z & Hr & Ez & EZ & HZ). clear HS.
  assert (G : forall A k, gfind A (the_group L) = true -> key L (V3 x y z) = k -> V3 x y z = row_times k A -> exists A, A ∈ the_group L /\ V3 x y z = row_times (key L (V3 x y z)) A).
  { intros A k H1%gfind_iff -> H2. eauto. }
  assert (K : forall k, key L (V3 x y z) = k -> match L with
    | Cubic => V3 (Z.max X (Z.max Y Z)) (X + Y + Z - Z.max X (Z.max Y Z) - Z.min X (Z.min Y Z)) (Z.min X (Z.min Y Z)) = k
    | Tetragonal => V3 X (Z.max Y Z) (Z.min Y Z) = k | _ => V3 X Y Z = k end).
  { intros k <-. unfold key. cbn [vx vy vz]. rewrite EX, EY, EZ. destruct HL as [-> |[-> | ->]]; done. }
  specialize (K _ Logic.eq_refl). destruct HL as [-> |[-> | ->]]; rewrite <- K in G |- *; clear K EX EY EZ.
  - destruct (Z.le_ge_cases Y X) as [H1|H1], (Z.le_ge_cases Z Y) as [H2|H2], (Z.le_ge_cases Z X) as [H3|H3].
    1: apply (G (V3 (V3 p 0 0) (V3 0 q 0) (V3 0 0 r)) (V3 X Y Z)).
    4: apply (G (V3 (V3 p 0 0) (V3 0 q 0) (V3 0 0 r)) (V3 X Y Z)).
    7: apply (G (V3 (V3 p 0 0) (V3 0 0 r) (V3 0 q 0)) (V3 X Z Y)).
    10: apply (G (V3 (V3 0 0 r) (V3 p 0 0) (V3 0 q 0)) (V3 Z X Y)).
    13: apply (G (V3 (V3 0 q 0) (V3 p 0 0) (V3 0 0 r)) (V3 Y X Z)).
    16: apply (G (V3 (V3 0 q 0) (V3 0 0 r) (V3 p 0 0)) (V3 Y Z X)).
    19: apply (G (V3 (V3 0 0 r) (V3 0 q 0) (V3 p 0 0)) (V3 Z Y X)).
    22: apply (G (V3 (V3 0 0 r) (V3 0 q 0) (V3 p 0 0)) (V3 Z Y X)).
    all: lazymatch goal with
      | |- gfind _ _ = true => apply cubic_all; clear - Hp Hq Hr; destruct Hp as [-> | ->], Hq as [-> | ->], Hr as [-> | ->]; vm_compute; tauto
      | |- V3 _ _ _ = row_times _ _ => unfold row_times, row_dot, column; cbn [vx vy vz vget]; rewrite Ex, Ey, Ez; f_equal; ring
      | |- _ => f_equal; lia end.
  - destruct (Z.le_ge_cases Z Y) as [H1|H1].
    1: apply (G (V3 (V3 p 0 0) (V3 0 q 0) (V3 0 0 r)) (V3 X Y Z)).
    4: apply (G (V3 (V3 p 0 0) (V3 0 0 r) (V3 0 q 0)) (V3 X Z Y)).
    all: lazymatch goal with
      | |- gfind _ _ = true => clear - Hp Hq Hr; destruct Hp as [-> | ->], Hq as [-> | ->], Hr as [-> | ->]; vm_compute; reflexivity
      | |- V3 _ _ _ = row_times _ _ => unfold row_times, row_dot, column; cbn [vx vy vz vget]; rewrite Ex, Ey, Ez; f_equal; ring
      | |- _ => f_equal; lia end.
  - apply (G (V3 (V3 p 0 0) (V3 0 q 0) (V3 0 0 r)) (V3 X Y Z)).
    all: lazymatch goal with
      | |- gfind _ _ = true => clear - Hp Hq Hr; destruct Hp as [-> | ->], Hq as [-> | ->], Hr as [-> | ->]; vm_compute; reflexivity
      | |- V3 _ _ _ = row_times _ _ => unfold row_times, row_dot, column; cbn [vx vy vz vget]; rewrite Ex, Ey, Ez; f_equal; ring
      | |- _ => done end.
Qed.
Lemma star_ok L g : three L -> exists st, makeStar (grid_cap L) (the_group L) g = Ok st /\ NoDup st /\ forall v, key L g = g -> v ∈ st <-> key L v = g.
Proof.
  intros HL. unfold makeStar. assert (Nat.ltb (grid_cap L) (length (the_group L)) = false) as -> by (destruct HL as [-> |[-> | ->]]; vm_compute; done).
  destruct (star_fold g (the_group L) []) as [H1 H2]. eexists. split; [done|]. split; [apply H1, NoDup_nil_2|]. intros v Hg. rewrite H2. split.
  - intros [H|(A & HA & ->)]; [by apply elem_of_nil in H|]. by rewrite key_row.
  - intros <-. right. by apply row_key.
Qed.
