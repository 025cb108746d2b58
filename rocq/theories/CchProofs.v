(** Lemmas on stored energies and analyzers. *)
From Verif Require Import Base CchModel CchSpec.
From Coq Require Import Reals Lra.

Section P.
  Context {Conf : Type}.
  Variables (U : nat -> Conf -> R) (base : nat) (ans : list analyzer).
  Implicit Types s : est Conf.

  (** What energy returns for each potential. *)
  Definition shown s (k : nat) : R := default (U k (eConf s)) (eCache s k).

  Lemma compute_ok ks : forall s, exists s', compute U ks s = (s', shown s <$> ks) /\ eConf s' = eConf s /\ (forall k, shown s' k = shown s k) /\
    (forall k, k ∈ ks -> eCache s' k = Some (shown s k)) /\ (forall k v, eCache s k = Some v -> eCache s' k = Some v).
  Proof.
    induction ks as [|k ks IH]; intros s.
    - exists s. split_and!; try done. intros k Hk. by apply elem_of_nil in Hk.
    - cbn [compute]. assert (exists s1, energy U s k = (s1, shown s k) /\ eConf s1 = eConf s /\ (forall j, shown s1 j = shown s j) /\ eCache s1 k = Some (shown s k) /\
        (forall j v, eCache s j = Some v -> eCache s1 j = Some v)) as (s1 & -> & E1 & E2 & E3 & E4).
      { unfold energy. destruct (eCache s k) as [v|] eqn:E.
        - exists s. unfold shown. rewrite E. done.
        - eexists. split; [unfold shown; rewrite E; reflexivity|]. cbn. unfold shown. cbn. rewrite E. split_and!; [done| |by rewrite decide_True|].
          + intros j. destruct (decide (j = k)) as [->|]; [by rewrite E|done].
          + intros j v Hj. destruct (decide (j = k)) as [->|]; [congruence|done]. }
      destruct (IH s1) as (s' & -> & H1 & H2 & H3 & H4). exists s'. split; [|split_and!].
      + cbn [fmap list_fmap]. do 2 f_equal. apply list_fmap_ext. intros ? ? _. apply E2.
      + congruence.
      + intros j. by rewrite H2, E2.
      + intros j Hj. apply elem_of_cons in Hj as [->|Hj]; [by apply H4|]. rewrite H3 by done. by rewrite E2.
      + intros j v Hj. by apply H4, E4.
  Qed.

  Definition got (i : nat) (c : Conf) (g : nat -> R) (l : list analyzer) : list (entry Conf) :=
    (fun a : analyzer => (i, c, a.2, g <$> a.2)) <$> filter (fun a : analyzer => i mod a.1 = 0) l.

  Lemma got_ext i c g g' l : (forall k, g k = g' k) -> got i c g l = got i c g' l.
  Proof. intros H. unfold got. apply list_fmap_ext. intros _ a _. f_equal. apply list_fmap_ext. intros _ k _. apply H. Qed.
  Lemma each_ok i l : forall s, exists s', sample_each U i l s = (s', got i (eConf s) (shown s) l) /\ eConf s' = eConf s /\ (forall k, shown s' k = shown s k) /\
    (forall a k, a ∈ l -> i mod a.1 = 0 -> k ∈ a.2 -> eCache s' k = Some (shown s k)) /\ (forall k v, eCache s k = Some v -> eCache s' k = Some v).
  Proof.
    induction l as [|a l IH]; intros s.
    - exists s. split_and!; try done. intros a k Hk. by apply elem_of_nil in Hk.
    - cbn [sample_each]. unfold sample_one, got. rewrite filter_cons. destruct (decide (i mod a.1 = 0)) as [Ha|Ha].
      + destruct (compute_ok a.2 s) as (s1 & -> & E1 & E2 & E3 & E4). destruct (IH s1) as (s' & -> & H1 & H2 & H3 & H4). exists s'. split; [|split_and!].
        * rewrite E1, (got_ext i (eConf s) (shown s1) (shown s) l E2). done.
        * congruence.
        * intros k. by rewrite H2, E2.
        * intros b k Hb Hi Hk. apply elem_of_cons in Hb as [->|Hb]; [by apply H4, E3|]. rewrite (H3 b k) by done. by rewrite E2.
        * intros k v Hk. by apply H4, E4.
      + destruct (IH s) as (s' & -> & H1 & H2 & H3 & H4). exists s'. split; [done|split_and!; try done].
        intros b k Hb Hi Hk. apply elem_of_cons in Hb as [->|Hb]; [done|]. by apply (H3 b k).
  Qed.

  Lemma shown_notify s k : shown (notify s) k = U k (eConf s).
  Proof. done. Qed.

  (** One sample of simulate. *)
  Lemma mc_sample_ok i s : 0 < base -> (forall a, a ∈ ans -> Nat.divide base a.1) ->
    exists s', mc_sample U base ans i s = Ok (s', got i (eConf s) (fun k => U k (eConf s)) ans) /\ eConf s' = eConf s.
  Proof.
    intros Hb Hd. unfold mc_sample. rewrite decide_True by lia. destruct (decide (i mod base = 0)) as [Hi|Hi].
    - destruct ans as [|a l] eqn:El; [by exists s|]. rewrite <- El. unfold sample. rewrite decide_True by done. rewrite decide_True by done. rewrite El.
      destruct (each_ok i (a :: l) (notify s)) as (s' & -> & H1 & _). cbn [obind]. eexists. split; [reflexivity|]. done.
    - exists s. split; [|done]. do 2 f_equal. unfold got. replace (filter _ ans) with (@nil analyzer); [done|]. symmetry.
      revert Hd. induction ans as [|a l IH]; intros Hd; [done|]. rewrite filter_cons_False.
      + apply IH. intros b Hbl. apply Hd. by right.
      + intros H. apply Hi. destruct (Hd a ltac:(left)) as [z Hz]. destruct (decide (a.1 = 0)) as [E|E]; [rewrite E in H; cbn in H; subst i; by apply Nat.mod_0_l; lia|].
        apply Nat.mod_divide in H; [|done]. apply Nat.mod_divide; [lia|]. etransitivity; [exists z; exact Hz|done].
  Qed.

  Lemma bind_in {A B} (f g : A -> list B) l : (forall x, x ∈ l -> f x = g x) -> l ≫= f = l ≫= g.
  Proof. induction l as [|x l IH]; intros H; [done|]. rewrite !bind_cons, (H x), IH by (try intros; try apply H; by constructor). done. Qed.
  Lemma conf_at_same (f : nat -> Conf -> Conf) c0 b : conf_at f c0 b b = c0.
  Proof. unfold conf_at. by rewrite Nat.sub_diag. Qed.
  Lemma conf_at_S (f : nat -> Conf -> Conf) c0 b i : b < i -> conf_at f c0 b i = conf_at f (f b c0) (S b) i.
  Proof. intros H. unfold conf_at. replace (i - b) with (S (i - S b)) by lia. done. Qed.

  Lemma mc_loop_ok moves f : 0 < base -> (forall a, a ∈ ans -> Nat.divide base a.1) -> (forall i s, eConf (moves i s) = f i (eConf s)) ->
    forall n i s log, exists s', mc_loop U base ans moves n i s log = Ok (s', log ++ due U ans (conf_at f (eConf s) i) (seq i n)) /\ eConf s' = conf_at f (eConf s) i (i + n).
  Proof.
    intros Hb Hd Hf. induction n as [|n IH]; intros i s log.
    - exists s. rewrite app_nil_r, Nat.add_0_r, conf_at_same. done.
    - cbn [mc_loop]. destruct (mc_sample_ok i s Hb Hd) as (s1 & -> & E1). cbn [obind]. destruct (IH (S i) (moves i s1) (log ++ got i (eConf s) (fun k => U k (eConf s)) ans)) as (s' & -> & E').
      exists s'. split.
      + do 2 f_equal. rewrite <- app_assoc. f_equal. unfold due. cbn [seq]. rewrite bind_cons. unfold got. rewrite conf_at_same. f_equal.
        rewrite Hf, E1. apply bind_in. intros j Hj. apply elem_of_list_In, in_seq in Hj. rewrite <- conf_at_S by lia. done.
      + rewrite E', Hf, E1. replace (S i + n) with (i + S n) by lia. by rewrite <- conf_at_S by lia.
  Qed.

  (** The loop over files, if the energies [g] of the potentials used by analyzers are stored. *)
  Lemma configs_ok files g : base = 1 -> (forall a, a ∈ ans -> a.1 = 1) ->
    forall n i s log, (forall a k, a ∈ ans -> k ∈ a.2 -> eCache s k = Some (g k)) ->
    exists s', configs_loop U base ans files n i s log = Ok (s', log ++ due_with g ans files (seq i n)).
  Proof.
    intros Hb H1. induction n as [|n IH]; intros i s log Hg; [exists s; by rewrite app_nil_r|].
    cbn [configs_loop]. unfold sample. rewrite decide_True by lia. rewrite decide_True by (rewrite Hb; apply Nat.mod_1_r).
    destruct (each_ok i ans (read_config (files i) s)) as (s1 & -> & _ & _ & _ & E4). cbn [obind].
    destruct (IH (S i) s1 (log ++ got i (eConf (read_config (files i) s)) (shown (read_config (files i) s)) ans)) as (s' & ->).
    { intros a k Ha Hk. by apply E4, (Hg a). }
    exists s'. do 2 f_equal. rewrite <- app_assoc. f_equal. unfold due_with. cbn [seq]. rewrite bind_cons. f_equal. unfold got. cbn [eConf read_config].
    apply list_fmap_ext. intros ? a Ha%elem_of_list_lookup_2. apply elem_of_list_filter in Ha as [_ Ha]. f_equal. apply list_fmap_ext. intros ? k Hk%elem_of_list_lookup_2. unfold shown. cbn. by rewrite (Hg a).
  Qed.

  Lemma got_calls i c g l : fst <$> got i c g l = (fun a : analyzer => (i, c, a.2)) <$> filter (fun a : analyzer => i mod a.1 = 0) l.
  Proof. unfold got. rewrite <- list_fmap_compose. apply list_fmap_ext. done. Qed.
  Lemma calls_app (l l' : list (nat * Conf)) : due_calls ans (l ++ l') = due_calls ans l ++ due_calls ans l'.
  Proof. apply bind_app. Qed.
  Lemma sample_base1 i s : base = 1 -> exists s' es, sample U base ans i s = Ok (s', es) /\ fst <$> es = due_calls ans [(i, eConf s)].
  Proof.
    intros Hb. unfold sample. rewrite decide_True by lia. rewrite decide_True by (rewrite Hb; apply Nat.mod_1_r).
    destruct (each_ok i ans s) as (s1 & -> & _). do 2 eexists. split; [reflexivity|]. rewrite got_calls. unfold due_calls. cbn. by rewrite app_nil_r.
  Qed.
  Lemma configs_calls files : base = 1 -> forall n i s log,
    exists s' es, configs_loop U base ans files n i s log = Ok (s', log ++ es) /\ fst <$> es = due_calls ans ((fun j => (j, files j)) <$> seq i n).
  Proof.
    intros Hb. induction n as [|n IH]; intros i s log; [exists s, []; by rewrite app_nil_r|]. cbn [configs_loop].
    destruct (sample_base1 i (read_config (files i) s) Hb) as (s1 & es1 & -> & E1). cbn [obind]. destruct (IH (S i) s1 (log ++ es1)) as (s' & es & -> & E).
    exists s', (es1 ++ es). rewrite <- app_assoc, fmap_app, E1, E. split; [done|]. rewrite <- calls_app. done.
  Qed.
  Lemma frames_calls lo : base = 1 -> forall frames n i s log,
    exists s' es, frames_loop U base ans frames n i lo s log = Ok (s', log ++ es, if decide (n <= length frames) then i + n else S (i + length frames)) /\
    fst <$> es = due_calls ans (filter (fun p : nat * Conf => lo <= p.1) (zip (seq i n) frames)).
  Proof.
    intros Hb. induction frames as [|c frames IH]; intros [|n] i s log.
    1, 2, 3: exists s, []; rewrite app_nil_r; cbn; rewrite ?Nat.add_0_r; done.
    cbn [frames_loop]. assert (exists s1 es1, (if decide (lo <= i) then sample U base ans i (read_config c s) else Ok (read_config c s, [])) = Ok (s1, es1) /\
      fst <$> es1 = due_calls ans (filter (fun p : nat * Conf => lo <= p.1) [(i, c)])) as (s1 & es1 & -> & E1).
    { rewrite filter_cons. cbn [fst]. destruct (decide (lo <= i)).
      - destruct (sample_base1 i (read_config c s) Hb) as (s1 & es1 & -> & E1). exists s1, es1. done.
      - do 2 eexists. split; [reflexivity|]. done. }
    cbn [obind]. destruct (IH n (S i) s1 (log ++ es1)) as (s' & es & -> & E). exists s', (es1 ++ es). rewrite <- app_assoc, fmap_app, E1, E. split.
    - do 2 f_equal. cbn [length]. repeat destruct (decide _); lia.
    - rewrite <- calls_app, <- filter_app. done.
  Qed.

  Lemma fmap_eq_in {A B} (f g : A -> B) (l : list A) x : f <$> l = g <$> l -> x ∈ l -> f x = g x.
  Proof. intros H Hx. apply elem_of_list_lookup in Hx as [i Hi]. apply (f_equal (lookup i)) in H. rewrite !list_lookup_fmap, Hi in H. cbn in H. by injection H. Qed.
End P.
