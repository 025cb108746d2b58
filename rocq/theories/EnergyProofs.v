(** Lemmas about sums over atoms and pairs, and about the loops of EnergyModel. *)
From stdpp Require Import gmap.
From Verif Require Import Base Vec3 BoxSpec McCellModel DomainModel SpeciesModel CellListModel CellListSpec CellListProofs
  PairListModel PairListSpec EnergyModel EnergySpec.
From Coq Require Import Reals Lra.
Local Open Scope R_scope.

(** ** Sums *)
Lemma sum_nil {A} (f : A -> R) : sum_over [] f = 0. Proof. done. Qed.
Lemma sum_cons {A} (f : A -> R) x l : sum_over (x :: l) f = f x + sum_over l f. Proof. done. Qed.
Lemma sum_app {A} (f : A -> R) l k : sum_over (l ++ k) f = sum_over l f + sum_over k f.
Proof. induction l as [|x l IH]; cbn [app]; rewrite ?sum_nil, ?sum_cons, ?IH; ring. Qed.
Lemma sum_perm {A} (f : A -> R) l k : l ≡ₚ k -> sum_over l f = sum_over k f.
Proof. induction 1; rewrite ?sum_cons; try lra. Qed.
Lemma sum_ext {A} (f g : A -> R) l : (forall x, x ∈ l -> f x = g x) -> sum_over l f = sum_over l g.
Proof.
  induction l as [|x l IH]; intros H; [done|]. rewrite !sum_cons, H by left. rewrite IH; [done|]. intros; apply H; by right.
Qed.
Lemma sum_plus {A} (f g : A -> R) l : sum_over l (fun x => f x + g x) = sum_over l f + sum_over l g.
Proof. induction l as [|x l IH]; rewrite ?sum_nil, ?sum_cons, ?IH; ring. Qed.
Lemma sum_minus {A} (f g : A -> R) l : sum_over l (fun x => f x - g x) = sum_over l f - sum_over l g.
Proof. induction l as [|x l IH]; rewrite ?sum_nil, ?sum_cons, ?IH; ring. Qed.
Lemma sum_scale {A} (c : R) (f : A -> R) l : sum_over l (fun x => c * f x) = c * sum_over l f.
Proof. induction l as [|x l IH]; rewrite ?sum_nil, ?sum_cons, ?IH; ring. Qed.
Lemma sum_0 {A} (f : A -> R) l : (forall x, x ∈ l -> f x = 0) -> sum_over l f = 0.
Proof.
  induction l as [|x l IH]; intros H; [done|]. rewrite sum_cons, H, IH; [ring| |left]. intros; apply H; by right.
Qed.
Lemma sum_map {A B} (h : A -> B) (f : B -> R) l : sum_over (map h l) f = sum_over l (fun x => f (h x)).
Proof. unfold sum_over. by rewrite map_map. Qed.
Lemma sum_swap {A B} (f : A -> B -> R) l k : sum_over l (fun x => sum_over k (f x)) = sum_over k (fun y => sum_over l (fun x => f x y)).
Proof.
  induction l as [|x l IH]; [symmetry; by apply sum_0|]. rewrite sum_cons, IH, <- sum_plus. done.
Qed.
Lemma sum_flat {A B} (g : A -> list B) (f : B -> R) l : sum_over (flat_map g l) f = sum_over l (fun x => sum_over (g x) f).
Proof. induction l as [|x l IH]; [done|]. cbn [flat_map]. by rewrite sum_app, IH. Qed.
(** Terms that vanish may be left out. *)
Lemma sum_sub {A} `{EqDecision A} (f : A -> R) l k : NoDup l -> l ⊆ k -> NoDup k ->
  (forall x, x ∈ k -> x ∉ l -> f x = 0) -> sum_over l f = sum_over k f.
Proof.
  intros Hl Hs Hk H0. assert (l ⊆+ k) as Hsub.
  { apply NoDup_submseteq; [done|]. intros x. apply Hs. }
  apply submseteq_Permutation in Hsub as [r Hr]. rewrite (sum_perm f _ _ Hr), sum_app, (sum_0 f r); [ring|].
  intros x Hx. apply H0.
  - rewrite Hr. apply elem_of_app. by right.
  - intros Hin. rewrite Hr in Hk. apply NoDup_app in Hk as (_ & Hk & _). by apply (Hk x).
Qed.
Lemma sum_filter {A} (P : A -> Prop) `{forall x, Decision (P x)} (f : A -> R) l :
  sum_over (filter P l) f = sum_over l (fun x => if decide (P x) then f x else 0).
Proof.
  induction l as [|x l IH]; [done|]. rewrite filter_cons, sum_cons. destruct (decide (P x)); rewrite ?sum_cons, IH; ring.
Qed.
Lemma sum_one {A} `{EqDecision A} (f : A -> R) l a : NoDup l -> a ∈ l -> (forall x, x ∈ l -> x <> a -> f x = 0) -> sum_over l f = f a.
Proof.
  intros Hl Ha H0. rewrite <- (sum_sub f [a] l); [rewrite sum_cons, sum_nil; ring|apply NoDup_singleton| |done|].
  - intros x. rewrite elem_of_list_singleton. by intros ->.
  - intros x Hx Hn. apply H0; [done|]. intros ->. apply Hn. left.
Qed.
Lemma fold_sum {A} (f : A -> R) l : forall e, fold_left (fun e x => e + f x) l e = e + sum_over l f.
Proof. induction l as [|x l IH]; intros e; cbn [fold_left]; rewrite ?sum_nil, ?sum_cons, ?IH; ring. Qed.
Lemma foldM_sum {A} (F : A -> outcome R) (f : A -> R) l : (forall x, x ∈ l -> F x = Ok (f x)) -> forall e,
  foldM (fun e x => let? y := F x in Ok (e + y)) e l = Ok (e + sum_over l f).
Proof.
  induction l as [|x l IH]; intros H e; cbn [foldM]; [by rewrite sum_nil, Rplus_0_r|].
  rewrite H by left. cbn [obind]. rewrite IH by (intros; apply H; by right). by rewrite sum_cons, Rplus_assoc.
Qed.

(** ** Pairs *)
Section Pairs.
  Context (A : list nat) (HA : NoDup A).
  (** Every ordered pair of different atoms. *)
  Definition all_pairs (f : nat -> nat -> R) : R := sum_over A (fun i => sum_over A (fun j => if decide (i = j) then 0 else f i j)).
  Definition half_pairs (f : nat -> nat -> R) : R := sum_over A (fun i => sum_over A (fun j => if decide (i < j)%nat then f i j else 0)).
  Lemma all_half f : (forall i j, f i j = f j i) -> all_pairs f = 2 * half_pairs f.
  Proof.
    intros Hs. unfold all_pairs, half_pairs.
    transitivity (sum_over A (fun i => sum_over A (fun j => if decide (i < j)%nat then f i j else 0)) +
                  sum_over A (fun i => sum_over A (fun j => if decide (j < i)%nat then f i j else 0))).
    - rewrite <- sum_plus. apply sum_ext. intros i _. rewrite <- sum_plus. apply sum_ext. intros j _.
      destruct (decide (i = j)) as [->|Hn].
      + rewrite !decide_False by lia. ring.
      + destruct (decide (i < j)%nat); [rewrite decide_False by lia; ring|rewrite decide_True by lia; ring].
    - rewrite (sum_swap (fun i j => if decide (j < i)%nat then f i j else 0)).
      replace (sum_over A (fun y => sum_over A (fun x => if decide (y < x)%nat then f x y else 0)))
        with (sum_over A (fun i => sum_over A (fun j => if decide (i < j)%nat then f i j else 0))); [ring|].
      apply sum_ext. intros i _. apply sum_ext. intros j _. destruct (decide (i < j)%nat); [apply Hs|done].
  Qed.
  Lemma half_ext f g : (forall i j, i ∈ A -> j ∈ A -> i <> j -> f i j = g i j) -> half_pairs f = half_pairs g.
  Proof.
    intros H. apply sum_ext. intros i Hi. apply sum_ext. intros j Hj. destruct (decide (i < j)%nat); [|done]. apply H; [done..|lia].
  Qed.
  (** Renaming the atoms. *)
  Lemma half_perm f (p : nat -> nat) : (forall i j, f i j = f j i) -> map p A ≡ₚ A ->
    half_pairs (fun i j => f (p i) (p j)) = half_pairs f.
  Proof.
    intros Hs Hp. assert (all_pairs (fun i j => f (p i) (p j)) = all_pairs f) as E.
    2:{ rewrite (all_half f Hs), all_half in E by (intros; apply Hs). lra. }
    assert (Hinj : forall i j, i ∈ A -> j ∈ A -> p i = p j -> i = j).
    { assert (NoDup (map p A)) as Hnd by (by rewrite Hp). clear Hp. intros i j Hi Hj E.
      apply elem_of_list_lookup in Hi as [a Ha]. apply elem_of_list_lookup in Hj as [b Hb].
      assert (a = b) as ->; [|congruence]. apply (NoDup_lookup (map p A) a b (p i)); [done| |].
      - rewrite list_lookup_fmap. by rewrite Ha.
      - rewrite list_lookup_fmap, Hb. cbn. by rewrite E. }
    unfold all_pairs. symmetry. rewrite <- (sum_perm _ _ _ Hp), sum_map. apply sum_ext. intros i Hi.
    rewrite <- (sum_perm _ _ _ Hp), sum_map. apply sum_ext. intros j Hj. symmetry.
    destruct (decide (i = j)) as [->|Hn]; [by rewrite decide_True|]. rewrite decide_False; [done|]. intros E. apply Hn. by apply Hinj.
  Qed.
  (** The pairs that contain an atom of a set, each once. *)
  Definition touching (f : nat -> nat -> R) (S : list nat) : R :=
    sum_over S (fun i => sum_over A (fun j => if decide (i = j) then 0 else if decide (j ∉ S \/ (i < j)%nat) then f i j else 0)).
  Lemma half_split f S : (forall i j, f i j = f j i) -> NoDup S -> S ⊆ A ->
    half_pairs f = touching f S + half_pairs (fun i j => if decide (i ∈ S \/ j ∈ S) then 0 else f i j).
  Proof.
    intros Hs HS HSA. set (g := fun i j => if decide (i ∈ S \/ j ∈ S) then f i j else 0).
    assert (half_pairs f = half_pairs g + half_pairs (fun i j => if decide (i ∈ S \/ j ∈ S) then 0 else f i j)) as ->.
    { unfold half_pairs. rewrite <- sum_plus. apply sum_ext. intros i _. rewrite <- sum_plus. apply sum_ext. intros j _. unfold g.
      destruct (decide (i < j)%nat); [|ring]. destruct (decide _); ring. }
    f_equal. unfold touching.
    set (F := fun i => sum_over A (fun j => if decide (i = j) then 0 else if decide (j ∉ S \/ (i < j)%nat) then f i j else 0)).
    transitivity (sum_over A (fun i => if decide (i ∈ S) then F i else 0)).
    2:{ symmetry. rewrite <- (sum_sub (fun i => if decide (i ∈ S) then F i else 0) S A); [|done|done|done|].
        - apply sum_ext. intros i Hi. by rewrite decide_True.
        - intros i _ Hi. by rewrite decide_False. }
    transitivity (sum_over A (fun i => sum_over A (fun j => if decide (i < j)%nat then if decide (i ∈ S) then f i j else 0 else 0)) +
                  sum_over A (fun i => sum_over A (fun j => if decide (i < j)%nat then if decide (i ∈ S) then 0 else if decide (j ∈ S) then f i j else 0 else 0))).
    { unfold half_pairs. rewrite <- sum_plus. apply sum_ext. intros i _. rewrite <- sum_plus. apply sum_ext. intros j _. unfold g.
      destruct (decide (i < j)%nat); [|ring]. destruct (decide (i ∈ S)), (decide (j ∈ S)), (decide (i ∈ S \/ j ∈ S)); try ring; tauto. }
    rewrite (sum_swap (fun i j => if decide (i < j)%nat then if decide (i ∈ S) then 0 else if decide (j ∈ S) then f i j else 0 else 0)).
    rewrite <- sum_plus. apply sum_ext. intros i _. rewrite <- sum_plus. unfold F. destruct (decide (i ∈ S)) as [Hi|Hi].
    - apply sum_ext. intros j _. destruct (decide (i = j)) as [->|Hn].
      + rewrite !decide_False by lia. ring.
      + destruct (decide (i < j)%nat).
        * rewrite (decide_False (P := (j < i)%nat)) by lia. rewrite decide_True by auto. ring.
        * rewrite (decide_True (P := (j < i)%nat)) by lia. destruct (decide (j ∈ S)) as [Hj|Hj].
          -- rewrite decide_False by (intros [|]; [done|lia]). ring.
          -- rewrite decide_True by auto. rewrite Hs. ring.
    - apply sum_0. intros j _. destruct (decide (i < j)%nat), (decide (j < i)%nat), (decide (j ∈ S)); ring.
  Qed.
  Lemma touching_one f a : touching f [a] = sum_over A (fun j => if decide (j = a) then 0 else f a j).
  Proof.
    unfold touching. rewrite sum_cons, sum_nil, Rplus_0_r. apply sum_ext. intros j _.
    destruct (decide (a = j)) as [->|Hn]; [by rewrite decide_True|]. rewrite (decide_False (P := j = a)) by done.
    rewrite decide_True; [done|]. left. rewrite elem_of_list_singleton. congruence.
  Qed.
End Pairs.

Lemma fold_sum_ext {A} (F : R -> A -> R) (f : A -> R) l : (forall e x, x ∈ l -> F e x = e + f x) ->
  forall e, fold_left F l e = e + sum_over l f.
Proof.
  induction l as [|x l IH]; intros H e; cbn [fold_left]; [rewrite sum_nil; ring|].
  rewrite H by left. rewrite IH by (intros; apply H; by right). rewrite sum_cons. ring.
Qed.
Lemma foldM_sum_ext {A} (F : R -> A -> outcome R) (f : A -> R) l : (forall e x, x ∈ l -> F e x = Ok (e + f x)) ->
  forall e, foldM F e l = Ok (e + sum_over l f).
Proof.
  induction l as [|x l IH]; intros H e; cbn [foldM]; [by rewrite sum_nil, Rplus_0_r|].
  rewrite H by left. cbn [obind]. rewrite IH by (intros; apply H; by right). by rewrite sum_cons, Rplus_assoc.
Qed.
Lemma sum_index {A} (f : A -> R) (l : list A) :
  sum_over l f = sum_over (seq 0 (length l)) (fun i => match l !! i with Some x => f x | None => 0 end).
Proof.
  assert (forall k pre, length pre = k -> sum_over l f =
    sum_over (seq k (length l)) (fun i => match (pre ++ l) !! i with Some x => f x | None => 0 end)) as H.
  2:{ apply (H 0%nat []). done. }
  induction l as [|x l IH]; intros k pre Hk; [done|]. cbn [length seq]. rewrite !sum_cons.
  rewrite lookup_app_r by lia. rewrite <- Hk, Nat.sub_diag. cbn [lookup list_lookup]. f_equal.
  rewrite (IH (S (length pre)) (pre ++ [x])) by (rewrite app_length; cbn; lia). by rewrite <- app_assoc.
Qed.

(** ** Energies of a system whose cell list is in order *)
Section System.
  Context (M cap : nat) (HM : (2 <= M)%nat) (toGen : vec3 R -> vec3 R) (dist2 : vec3 R -> vec3 R -> R) (n : vec3 Z).
  Context (masked : nat -> nat -> bool) (u : R -> Z -> Z -> R) (cut : R) (kinds : list gkind) (ext : option (vec3 R -> Z -> R)).
  Context (molOf : nat -> nat) (A : list nat) (HA : NoDup A).
  Context (Hadj : forall r q, primary (toGen r) -> primary (toGen q) -> dist2 r q < cut * cut ->
             adjacent n (ccell n (toGen r)) (ccell n (toGen q))).
  Context (Hcut : forall r t1 t2, cut * cut <= r -> u r t1 t2 = 0).
  Context (Hd : forall r q, dist2 r q = dist2 q r) (Hu : forall r t1 t2, u r t1 t2 = u r t2 t1)
          (Hm : forall i j, masked i j = masked j i).
  Local Notation ci := (clinv M cap toGen n).

  (** the energy of two atoms *)
  Definition w (pos : nat -> vec3 R) (ty : nat -> Z) (i j : nat) : R :=
    if masked i j then 0 else u (dist2 (pos i) (pos j)) (ty i) (ty j).
  Lemma w_sym pos ty i j : w pos ty i j = w pos ty j i.
  Proof. unfold w. rewrite Hm, Hd, Hu. done. Qed.

  Lemma pair_atom_nb s h a : ci (sCells s) h -> primary (toGen (sPos s a)) ->
    exists nb, NoDup nb /\
      (forall j, j ∈ nb <-> exists q, h !! j = Some q /\ adjacent n (ccell n (toGen (sPos s a))) (ccell n (toGen q))) /\
      pair_atom M toGen dist2 masked u s a = Ok (sum_over nb (fun j => if decide (j = a) then 0 else w (sPos s) (sTy s) a j)).
  Proof.
    intros I Hp. destruct (neighbors_spec M cap HM toGen n _ _ _ I Hp) as (nb & nIn & _ & Hnb & Hnd & Hel & _).
    exists nb. split; [done|]. split; [done|]. unfold pair_atom. rewrite Hnb. cbn [obind]. f_equal.
    rewrite (fold_sum_ext _ (fun j => if decide (j = a) then 0 else w (sPos s) (sTy s) a j)); [ring|].
    intros e j _. unfold w, pair_u. destruct (decide (j = a)); [ring|]. destruct (masked a j); ring.
  Qed.

  (** [h] holds the atoms at their positions, except perhaps [a]. *)
  Definition held_but (h : held_at) (pos : nat -> vec3 R) (X : list nat) : Prop :=
    (forall a, is_Some (h !! a) <-> a ∈ A) /\ (forall a, a ∈ A -> a ∉ X -> h !! a = Some (pos a)).

  Lemma nb_sum h pos ty (a : nat) (f : nat -> R) nb p X : primary (toGen p) -> held_but h pos X -> NoDup nb ->
    (forall b q, h !! b = Some q -> primary (toGen q)) ->
    (forall j, j ∈ nb <-> exists q, h !! j = Some q /\ adjacent n (ccell n (toGen p)) (ccell n (toGen q))) ->
    (forall j, j ∈ X -> f j = 0) -> (forall j, j ∈ A -> u (dist2 p (pos j)) (ty a) (ty j) = 0 -> f j = 0) ->
    sum_over nb f = sum_over A f.
  Proof.
    intros Hp [H1 H2] Hnd Hpr Hel HX H0. apply sum_sub; [done| |done|].
    - intros j Hj. apply Hel in Hj as (q & Hq & _). apply H1. eauto.
    - intros j Hj Hn. destruct (decide (j ∈ X)) as [|HjX]; [by apply HX|]. apply H0; [done|].
      apply Hcut. destruct (Rle_lt_dec (cut * cut) (dist2 p (pos j))) as [|Hlt]; [done|]. exfalso. apply Hn, Hel.
      pose proof (H2 j Hj HjX) as Hq. exists (pos j). split; [done|]. apply Hadj; [done|by eapply Hpr|done].
  Qed.

  Lemma pair_atom_eq s h a : ci (sCells s) h -> primary (toGen (sPos s a)) -> held_but h (sPos s) [a] ->
    pair_atom M toGen dist2 masked u s a = Ok (sum_over A (fun j => if decide (j = a) then 0 else w (sPos s) (sTy s) a j)).
  Proof.
    intros I Hp Hh. destruct (pair_atom_nb s h a I Hp) as (nb & Hnd & Hel & ->). f_equal.
    apply (nb_sum h (sPos s) (sTy s) a _ nb (sPos s a) [a]); [done|done|done| |done| |].
    - intros b q Hq. by apply (ci_prim _ _ _ _ _ _ I _ _ Hq).
    - intros j ->%elem_of_list_singleton. by rewrite decide_True.
    - intros j _ E. unfold w. rewrite E. destruct (decide _), (masked a j); done.
  Qed.

  Lemma pair_mol_eq s h mol : ci (sCells s) h -> held_but h (sPos s) [] -> mol ⊆ A ->
    (forall i j, i ∈ mol -> j ∈ A -> molOf i = molOf j <-> j ∈ mol) ->
    pair_mol M toGen dist2 masked u molOf s mol = Ok (touching A (w (sPos s) (sTy s)) mol).
  Proof.
    intros I Hh Hsub Hmol. unfold pair_mol, touching.
    set (f := fun i => sum_over A (fun j => if decide (i = j) then 0 else
                 if decide (j ∉ mol \/ (i < j)%nat) then w (sPos s) (sTy s) i j else 0)).
    rewrite (foldM_sum_ext _ f); [by rewrite Rplus_0_l|]. intros e i Hi.
    pose proof (proj2 Hh i (Hsub i Hi) ltac:(apply not_elem_of_nil)) as Hq.
    destruct (ci_prim _ _ _ _ _ _ I _ _ Hq) as [Hp _].
    destruct (neighbors_spec M cap HM toGen n _ _ _ I Hp) as (nb & nIn & _ & Hnb & Hnd & Hel & _). rewrite Hnb. cbn [obind]. f_equal.
    rewrite (fold_sum_ext _ (fun j => if decide (i = j) then 0 else
                 if decide (j ∉ mol \/ (i < j)%nat) then w (sPos s) (sTy s) i j else 0)).
    - f_equal. unfold f. apply (nb_sum h (sPos s) (sTy s) i _ nb (sPos s i) []); [done|done|done| |done| |].
      + intros b q Hbq. by apply (ci_prim _ _ _ _ _ _ I _ _ Hbq).
      + by intros j ?%elem_of_nil.
      + intros j _ E. unfold w. rewrite E. destruct (masked i j); by repeat case_decide.
    - intros e' j Hj. unfold w, pair_u. destruct (decide (j = i)) as [->|Hne].
      + rewrite (decide_True (P := i = i)) by done. ring.
      + rewrite (decide_False (P := i = j)) by done.
        assert (j ∈ A) as HjA. { apply Hel in Hj as (q & Hjq & _). apply (proj1 Hh). eauto. }
        pose proof (Hmol i j Hi HjA) as HM'. destruct (masked i j).
        * destruct (decide _); ring.
        * destruct (decide (molOf i <> molOf j \/ (i < j)%nat)) as [H1|H1], (decide (j ∉ mol \/ (i < j)%nat)) as [H2|H2]; [ring| | |ring]; exfalso; tauto.
  Qed.

  Lemma pair_total_eq s h : ci (sCells s) h -> held_but h (sPos s) [] ->
    pair_total M dist2 masked u s = Ok (half_pairs A (w (sPos s) (sTy s))).
  Proof.
    intros I Hh. set (l := sCells s) in *. pose proof (ci_wf _ _ _ _ _ _ I) as W.
    set (G := fun i => sum_over A (fun j => if decide (i < j)%nat then w (sPos s) (sTy s) i j else 0)).
    assert (Hpos : forall i q, h !! i = Some q -> i ∈ A /\ q = sPos s i).
    { intros i q Hq. assert (i ∈ A) as Hi by (apply (proj1 Hh); eauto). split; [done|].
      rewrite (proj2 Hh i Hi ltac:(apply not_elem_of_nil)) in Hq. by injection Hq. }
    assert (Hat : forall ic, (0 <= ic < clTot l)%Z -> NoDup (atoms_of (clCells l) ic) /\
              forall a, a ∈ atoms_of (clCells l) ic <-> a ∈ A /\ ix toGen n (sPos s a) = ic).
    { intros ic Hic. destruct (atoms_of_spec M cap HM toGen n l h ic I Hic) as (H1 & _ & H2). split; [done|]. intros a. rewrite H2. split.
      - intros (q & Hq & E). destruct (Hpos _ _ Hq) as [Ha ->]. done.
      - intros [Ha E]. exists (sPos s a). split; [|done]. apply (proj2 Hh); [done|apply not_elem_of_nil]. }
    unfold pair_total. fold l.
    rewrite (foldM_sum_ext _ (fun ic => sum_over (atoms_of (clCells l) ic) G)).
    - rewrite Rplus_0_l. f_equal. rewrite <- sum_flat. unfold half_pairs. fold G. apply sum_perm. apply NoDup_Permutation.
      + apply nodup_flat_map; [apply NoDup_seqZ| |].
        * intros ic Hic. apply elem_of_seqZ in Hic. apply Hat. lia.
        * intros i j a Hi Hj Ha Hb. apply elem_of_seqZ in Hi, Hj. apply Hat in Ha as [_ <-]; [|lia]. apply Hat in Hb as [_ <-]; [done|lia].
      + done.
      + intros a. rewrite elem_flat_map. split.
        * intros (ic & Hic & Ha). apply elem_of_seqZ in Hic. by apply Hat in Ha as [? _]; [|lia].
        * intros Ha. pose proof (proj2 Hh a Ha ltac:(apply not_elem_of_nil)) as Hq. destruct (ci_prim _ _ _ _ _ _ I _ _ Hq) as [Hp _].
          destruct (g_index _ _ W toGen _ Hp) as [_ Hg]. exists (ix toGen n (sPos s a)).
          assert (0 <= ix toGen n (sPos s a) < clTot l)%Z as Hr by (rewrite (g_tot _ _ W); by apply cidx_range).
          split; [apply elem_of_seqZ; lia|]. by apply Hat.
    - intros e ic Hic%elem_of_seqZ. assert (0 <= ic < clTot l)%Z as Hr by lia. destruct (g_index_ex _ _ W ic Hr) as (c & Hg & Ec).
      assert (forall j, (0 <= j < clTot l)%Z -> (length (atoms_of (clCells l) j) <= M)%nat) as HL.
      { intros j Hj. by apply (atoms_of_spec M cap HM toGen n l h j). }
      pose proof (neighbors_eq M l n c W Hg HL) as HN. rewrite <- Ec in HN. rewrite HN. cbn [obind].
      set (xs := atoms_of (clCells l) ic) in *. set (ys := flat_map _ _) in *.
      assert (forall k pre e', length pre = k ->
        foldM (fun e ip => let? i := aget (pre ++ xs ++ ys) ip in
          Ok (fold_left (fun e j => if decide (i < j)%nat then if masked i j then e else e + pair_u dist2 u s i j else e) (xs ++ ys) e)) e' (seq k (length xs)) =
        foldM (fun e i => Ok (fold_left (fun e j => if decide (i < j)%nat then if masked i j then e else e + pair_u dist2 u s i j else e) (xs ++ ys) e)) e' xs) as HS.
      { generalize (xs ++ ys) at 2 3. intros zs. clear. induction xs as [|x xs IH]; intros k pre e' Hk; [done|].
        cbn [length seq foldM]. unfold aget at 1. rewrite lookup_app_r by lia. rewrite <- Hk, Nat.sub_diag. cbn [app lookup list_lookup obind].
        pose proof (IH (S (length pre)) (pre ++ [x])) as IH'. rewrite <- app_assoc in IH'. cbn [app] in IH'. apply IH'. rewrite app_length. cbn. lia. }
      etrans; [exact (HS 0%nat [] e eq_refl)|]. apply foldM_sum_ext. intros e' i Hi. f_equal.
      apply Hat in Hi as [HiA Hix]; [|done].
      pose proof (proj2 Hh i HiA ltac:(apply not_elem_of_nil)) as Hq. destruct (ci_prim _ _ _ _ _ _ I _ _ Hq) as [Hp _].
      destruct (neighbors_spec M cap HM toGen n _ _ _ I Hp) as (nb & nIn & Hc & _ & Hnd & Hel & _).
      rewrite (proj1 (g_index _ _ W toGen _ Hp)) in Hc. fold (ix toGen n (sPos s i)) in Hc. rewrite Hix, HN in Hc. injection Hc as <- _.
      rewrite (fold_sum_ext _ (fun j => if decide (i < j)%nat then w (sPos s) (sTy s) i j else 0)).
      + f_equal. unfold G. apply (nb_sum h (sPos s) (sTy s) i _ _ (sPos s i) []); [done|done|done| |done| |].
        * intros b q Hbq. by apply (ci_prim _ _ _ _ _ _ I _ _ Hbq).
        * by intros j ?%elem_of_nil.
        * intros j _ E. unfold w. rewrite E. destruct (masked i j); by repeat case_decide.
      + intros e2 j _. unfold w, pair_u. destruct (decide (i < j)%nat); [|ring]. destruct (masked i j); ring.
  Qed.
End System.
