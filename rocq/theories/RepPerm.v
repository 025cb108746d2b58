(** Permutations and messages of replica exchange. *)
From Coq Require Import Reals Lra.
From Coquelicot Require Import Coquelicot.
From stdpp Require Import gmap list_numbers.
From Verif Require Import Base Vec3 BoxSpec OrthoModel MonoModel McCellModel DomainModel SpeciesModel CellListModel PairListModel EnergyModel EnergySpec EnergyProofs MoveModel RepModel RepSpec.
From Coq Require Import Reals Lra.
Local Open Scope R_scope.

(** * Permutations *)
Definition bij (n : nat) (perm : list nat) : Prop := length perm = n /\ NoDup perm /\ forall x, x ∈ perm -> (x < n)%nat.
Lemma bij_iff n perm : bij n perm <-> perm ≡ₚ seq 0 n.
Proof.
  split.
  - intros (H1 & H2 & H3). apply submseteq_Permutation_length_le; [rewrite seq_length; lia|]. apply NoDup_submseteq; [done|]. intros x Hx. apply elem_of_list_In, in_seq. specialize (H3 x Hx). lia.
  - intros H. split; [by rewrite H, seq_length|]. split; [rewrite H; apply NoDup_ListNoDup, seq_NoDup|]. intros x Hx. rewrite H in Hx. apply elem_of_list_In, in_seq in Hx. lia.
Qed.
Lemma bij_at n perm i : bij n perm -> (i < n)%nat -> exists p, perm !! i = Some p /\ (p < n)%nat.
Proof. intros (H1 & H2 & H3) Hi. destruct (lookup_lt_is_Some_2 perm i) as [p Hp]; [lia|]. exists p. split; [done|]. apply H3. by eapply elem_of_list_lookup_2. Qed.
Lemma bij_of n perm r : bij n perm -> (r < n)%nat -> exists i, perm !! i = Some r /\ (i < n)%nat.
Proof.
  intros H Hr. assert (r ∈ perm) as [i Hi]%elem_of_list_lookup. { apply bij_iff in H. rewrite H. apply elem_of_list_In, in_seq. lia. }
  exists i. split; [done|]. apply lookup_lt_Some in Hi. destruct H as [<- _]. done.
Qed.
Definition swapped (perm : list nat) (i j pi pj : nat) : list nat := <[j := pi]> (<[i := pj]> perm).
Lemma swapped_lookup perm i j pi pj x : i <> j -> perm !! i = Some pi -> perm !! j = Some pj ->
  swapped perm i j pi pj !! x = if decide (x = i) then Some pj else if decide (x = j) then Some pi else perm !! x.
Proof.
  intros Hij Hi Hj. unfold swapped. pose proof (lookup_lt_Some _ _ _ Hi). pose proof (lookup_lt_Some _ _ _ Hj).
  destruct (decide (x = j)) as [-> |Hxj].
  - rewrite list_lookup_insert by (rewrite insert_length; lia). rewrite decide_False by done. done.
  - rewrite list_lookup_insert_ne by done. destruct (decide (x = i)) as [-> |Hxi]; [by rewrite list_lookup_insert by lia|]. by rewrite list_lookup_insert_ne by done.
Qed.
Lemma swapped_bij n perm i j pi pj : i <> j -> perm !! i = Some pi -> perm !! j = Some pj -> bij n perm -> bij n (swapped perm i j pi pj).
Proof.
  intros Hij Hi Hj (H1 & H2 & H3). split; [unfold swapped; by rewrite !insert_length|]. split.
  - apply NoDup_alt. intros a b x. rewrite !swapped_lookup by done. rewrite NoDup_alt in H2.
    repeat case_decide; subst; intros A B; try done; try (injection A as <-); try (injection B as <-); try done; try (eapply H2; eassumption); exfalso;
      try (match goal with H : ?l !! ?a = Some ?x, H' : ?l !! ?b = Some ?x |- _ => assert (a = b) by (eapply H2; eauto); congruence end).
  - intros y Hy. apply elem_of_list_lookup in Hy as [a Ha]. rewrite swapped_lookup in Ha by done. apply H3. repeat case_decide; [injection Ha as <-|injection Ha as <-|]; by eapply elem_of_list_lookup_2.
Qed.
Lemma swapped_back perm i j pi pj : i <> j -> perm !! i = Some pi -> perm !! j = Some pj -> swapped (swapped perm i j pi pj) i j pj pi = perm.
Proof.
  intros Hij Hi Hj. apply list_eq. intros x. rewrite swapped_lookup; [|done|rewrite swapped_lookup by done; by rewrite decide_True|rewrite swapped_lookup by done; rewrite decide_False by done; by rewrite decide_True].
  rewrite swapped_lookup by done. repeat case_decide; subst; done.
Qed.
Lemma partner_spec n i j0 : (i < n)%nat -> (S j0 < n)%nat -> (partner i j0 < n)%nat /\ partner i j0 <> i.
Proof. intros Hi Hj. unfold partner. destruct (Nat.leb_spec i j0); lia. Qed.
Lemma step_value nP D P n perm i j0 r : bij n perm -> (i < n)%nat -> (S j0 < n)%nat ->
  exists pi pj, perm !! i = Some pi /\ perm !! partner i j0 = Some pj /\
    swap_step nP D P perm (i, j0, r) = Ok (if metropolis (exp (- swap_weight nP D P i (partner i j0) pi pj)) r then swapped perm i (partner i j0) pi pj else perm).
Proof.
  intros HB Hi Hj. destruct (partner_spec n i j0 Hi Hj) as [Hp Hne]. destruct (bij_at n perm i HB Hi) as (pi & E1 & _). destruct (bij_at n perm _ HB Hp) as (pj & E2 & _).
  exists pi, pj. split; [done|]. split; [done|]. unfold swap_step, aget. rewrite E1. cbn [obind]. rewrite E2. cbn [obind]. destruct (metropolis _ r); [|done].
  unfold aset. rewrite decide_True by (by apply lookup_lt_Some in E1). cbn [obind]. rewrite decide_True by (rewrite insert_length; by apply lookup_lt_Some in E2). done.
Qed.
Lemma sample_bij nP D P n draws : Forall (fun t => (t.1.1 < n)%nat /\ (S t.1.2 < n)%nat) draws -> forall perm, bij n perm -> exists perm', foldM (swap_step nP D P) perm draws = Ok perm' /\ bij n perm'.
Proof.
  induction 1 as [|[[i j0] r] draws [Hi Hj] _ IH]; intros perm HB; cbn [foldM]; [eauto|]. cbn in Hi, Hj.
  destruct (step_value nP D P n perm i j0 r HB Hi Hj) as (pi & pj & E1 & E2 & ->). cbn [obind]. apply IH. destruct (metropolis _ r); [|done].
  apply swapped_bij; try done. pose proof (partner_spec n i j0 Hi Hj). intuition.
Qed.

(** * Weights *)
Lemma sum_two (g : nat -> R) n i j : (i < n)%nat -> (j < n)%nat -> i <> j -> (forall c, c <> i -> c <> j -> g c = 0) -> sum_over (seq 0 n) g = g i + g j.
Proof.
  intros Hi Hj Hij Hg. assert (ND : NoDup (seq 0 n)) by apply NoDup_ListNoDup, seq_NoDup.
  rewrite (sum_ext g (fun c => (if decide (c = i) then g c else 0) + (if decide (c = i) then 0 else g c))) by (intros; case_decide; ring).
  rewrite EnergyProofs.sum_plus. rewrite (sum_one _ _ i ND); [|apply elem_of_list_In, in_seq; lia|intros; by rewrite decide_False]. rewrite (sum_one _ _ j ND); [|apply elem_of_list_In, in_seq; lia|].
  - rewrite decide_True by done. rewrite decide_False by done. ring.
  - intros c _ Hc. case_decide; [done|]. by apply Hg.
Qed.
Definition assigned (perm : list nat) (c : nat) : nat := default 0%nat (perm !! c).
Lemma exponent_swap nP D P n perm i j pi pj : i <> j -> (i < n)%nat -> (j < n)%nat -> perm !! i = Some pi -> perm !! j = Some pj ->
  exponent nP D P n (assigned (swapped perm i j pi pj)) - exponent nP D P n (assigned perm) = swap_weight nP D P i j pi pj.
Proof.
  intros Hij Hi Hj E1 E2. unfold exponent. rewrite <- sum_minus.
  rewrite (sum_two _ n i j Hi Hj Hij).
  - unfold assigned. rewrite !swapped_lookup by done. rewrite decide_True by done. rewrite (decide_False (P := j = i)) by done. rewrite decide_True by done. rewrite E1, E2. cbn [default].
    unfold swap_weight. rewrite (fold_sum_ext _ (fun k => (P pj k - P pi k) * (D i k - D j k))) by done. rewrite Rplus_0_l, <- !sum_minus, <- EnergyProofs.sum_plus.
    apply sum_ext. intros k _. cbn. ring.
  - intros c Hci Hcj. unfold assigned. rewrite swapped_lookup by done. rewrite !decide_False by done. ring.
Qed.

(** * Messages *)
Definition block (i p : nat) : list msg := (if Nat.eqb i 0 then [] else [Msg i 0 p]) ++ (if Nat.eqb p 0 then [] else [Msg p 1 i]).
Lemma imap_snoc {A B} (f : nat -> A -> B) l p : imap f (l ++ [p]) = imap f l ++ [f (length l) p].
Proof. rewrite imap_app. cbn. by rewrite Nat.add_0_r. Qed.
Lemma join_snoc {A} (a : list (list A)) b : mjoin (a ++ [b]) = mjoin a ++ b.
Proof. induction a as [|x a IH]; [apply app_nil_r|]. change (mjoin ((x :: a) ++ [b])) with (x ++ mjoin (a ++ [b])). rewrite IH. apply app_assoc. Qed.
Lemma sends_snoc l p : sends (l ++ [p]) = sends l ++ block (length l) p.
Proof. unfold sends. by rewrite imap_snoc, join_snoc. Qed.
Lemma filter_tag0 l r : r <> 0%nat -> filter (fun m => mTo m = r /\ mTag m = 0%nat) (sends l) = match l !! r with Some p => [Msg r 0 p] | None => [] end.
Proof.
  intros Hr. induction l as [|p l IH] using rev_ind; [done|]. rewrite sends_snoc, filter_app, IH. unfold block. rewrite filter_app.
  assert (filter (fun m => mTo m = r /\ mTag m = 0%nat) (if Nat.eqb p 0 then [] else [Msg p 1 (length l)]) = []) as ->.
  { destruct (Nat.eqb p 0); [done|]. rewrite filter_cons_False; [done|]. cbn. lia. }
  rewrite app_nil_r. destruct (decide (r < length l)%nat) as [H|H].
  - rewrite lookup_app_l by done. destruct (Nat.eqb_spec (length l) 0); [lia|]. rewrite filter_cons_False by (cbn; lia). by rewrite app_nil_r.
  - rewrite (lookup_ge_None_2 l r) by lia. destruct (decide (r = length l)) as [-> |Hne].
    + rewrite lookup_app_r, Nat.sub_diag by lia. cbn [lookup list_lookup]. destruct (Nat.eqb_spec (length l) 0); [done|]. rewrite filter_cons_True by done. done.
    + rewrite lookup_ge_None_2 by (rewrite app_length; cbn; lia). destruct (Nat.eqb_spec (length l) 0); [done|]. rewrite filter_cons_False by (cbn; lia). done.
Qed.
Lemma filter_tag1 l r : NoDup l -> r <> 0%nat ->
  (forall i, l !! i = Some r -> filter (fun m => mTo m = r /\ mTag m = 1%nat) (sends l) = [Msg r 1 i]) /\ (r ∉ l -> filter (fun m => mTo m = r /\ mTag m = 1%nat) (sends l) = []).
Proof.
  intros HN Hr. induction l as [|p l IH] using rev_ind; [done|]. apply NoDup_app in HN as (HN & HD & _). destruct (IH HN) as [IH1 IH2].
  rewrite sends_snoc, filter_app. unfold block. rewrite filter_app.
  assert (filter (fun m => mTo m = r /\ mTag m = 1%nat) (if Nat.eqb (length l) 0 then [] else [Msg (length l) 0 p]) = []) as ->.
  { destruct (Nat.eqb _ 0); [done|]. rewrite filter_cons_False; [done|]. cbn. lia. }
  cbn [app]. split.
  - intros i Hi. apply lookup_app_Some in Hi as [Hi|[Hl Hi]].
    + rewrite (IH1 i Hi). assert (r <> p). { intros ->. apply (HD p); [by eapply elem_of_list_lookup_2|left]. }
      destruct (Nat.eqb p 0); [done|]. rewrite filter_cons_False by (cbn; lia). done.
    + apply list_lookup_singleton_Some in Hi as [Hi ->]. rewrite IH2 by (intros Hin; apply (HD _ Hin); left). destruct (Nat.eqb_spec r 0); [done|].
      rewrite filter_cons_True by done. cbn. do 2 f_equal. lia.
  - intros Hn. rewrite IH2 by (intros Hin; apply Hn, elem_of_app; by left). destruct (Nat.eqb p 0); [done|]. rewrite filter_cons_False; [done|]. cbn. intros [-> _]. apply Hn, elem_of_app. right. left.
Qed.
Lemma root_recv_eq l : NoDup l -> (forall i, l !! i = Some 0%nat -> root_recv l = Some i) /\ (0%nat ∉ l -> root_recv l = None).
Proof.
  intros HN. unfold root_recv. induction l as [|p l IH] using rev_ind; [done|]. apply NoDup_app in HN as (HN & HD & _). destruct (IH HN) as [IH1 IH2].
  rewrite imap_snoc, fold_left_app. cbn [fold_left fst snd]. split.
  - intros i Hi. apply lookup_app_Some in Hi as [Hi|[Hl Hi]].
    + destruct (Nat.eqb_spec p 0) as [-> |_]; [|by apply IH1]. exfalso. apply (HD 0%nat); [by eapply elem_of_list_lookup_2|left].
    + apply list_lookup_singleton_Some in Hi as [Hi ->]. rewrite Nat.eqb_refl. f_equal. lia.
  - intros Hn. destruct (Nat.eqb_spec p 0) as [-> |_]; [exfalso; apply Hn, elem_of_app; right; left|]. apply IH2. intros Hin. apply Hn, elem_of_app. by left.
Qed.
Lemma send_pt_eq n perm r : bij n perm -> (r < n)%nat -> send_pt perm r = perm !! r.
Proof.
  intros HB Hr. unfold send_pt. destruct (Nat.eqb_spec r 0) as [-> |Hne]; [done|]. unfold receive. rewrite filter_tag0 by done.
  destruct (bij_at n perm r HB Hr) as (p & -> & _). done.
Qed.
Lemma recv_pt_eq n perm r i : bij n perm -> perm !! i = Some r -> recv_pt perm r = Some i.
Proof.
  intros (H1 & H2 & H3) Hi. unfold recv_pt. destruct (Nat.eqb_spec r 0) as [-> |Hne]; [by apply (proj1 (root_recv_eq perm H2))|]. unfold receive. rewrite (proj1 (filter_tag1 perm r H2 Hne) i Hi). done.
Qed.
Lemma exchanged_eq {C} n perm (x : nat -> C) r i : bij n perm -> perm !! i = Some r -> exchanged perm x r = Some (x i).
Proof.
  intros HB Hi. assert (Hin : (i < n)%nat) by (apply lookup_lt_Some in Hi; destruct HB as [<- _]; done).
  assert (Hr : (r < n)%nat) by (apply HB; by eapply elem_of_list_lookup_2). unfold exchanged.
  rewrite (recv_pt_eq n perm r i HB Hi), (send_pt_eq n perm r HB Hr). destruct (bij_at n perm r HB Hr) as (p & Ep & _). rewrite Ep.
  destruct (Nat.eqb_spec i r) as [-> |Hne]; [done|]. destruct (Nat.eqb_spec p r) as [-> |Hp].
  { exfalso. apply Hne. destruct HB as (_ & ND & _). eapply NoDup_lookup; eauto. }
  cbn [orb]. rewrite (send_pt_eq n perm i HB Hin), Hi, Nat.eqb_refl. done.
Qed.

(** * Messages without buffers *)
Definition count_to (ms : list msg) (r : nat) : nat := length (filter (fun m => mTo m = r) ms).
Lemma rendezvous_ext ms : forall nx nx', (forall r, nx r = nx' r) -> rendezvous ms nx = rendezvous ms nx'.
Proof. induction ms as [|m ms IH]; intros nx nx' H; cbn [rendezvous]; [done|]. rewrite H. f_equal. apply IH. intros r. by rewrite H. Qed.
Lemma rendezvous_app a : forall b nx, rendezvous (a ++ b) nx = rendezvous a nx && rendezvous b (fun r => nx r + count_to a r)%nat.
Proof.
  induction a as [|m a IH]; intros b nx; cbn [app rendezvous].
  - cbn [andb]. apply rendezvous_ext. intros r. cbn. lia.
  - rewrite IH, andb_assoc. f_equal. apply rendezvous_ext. intros r. unfold count_to. destruct (Nat.eqb_spec r (mTo m)) as [-> |Hne].
    + rewrite filter_cons_True by done. cbn [length]. lia.
    + rewrite filter_cons_False by congruence. done.
Qed.
Lemma count_app a b r : count_to (a ++ b) r = (count_to a r + count_to b r)%nat.
Proof. unfold count_to. by rewrite filter_app, app_length. Qed.
Lemma count_sends l r : NoDup l -> (length l <= r)%nat -> r ∉ l -> r <> 0%nat -> count_to (sends l) r = 0%nat.
Proof.
  intros HN. induction l as [|p l IH] using rev_ind; [done|]. rewrite app_length. cbn [length]. intros Hl Hn Hr. apply NoDup_app in HN as (HN & _ & _).
  rewrite sends_snoc, count_app, IH by (done || lia || (intros Hin; apply Hn, elem_of_app; by left)). unfold block. rewrite count_app. unfold count_to.
  assert (r <> p) by (intros ->; apply Hn, elem_of_app; right; left).
  destruct (Nat.eqb (length l) 0), (Nat.eqb p 0); rewrite ?filter_cons_False by (cbn; lia); done.
Qed.
Lemma identity_ok n : rendezvous (sends (seq 0 n)) (fun _ => 0%nat) = true /\ forall r, (n <= r)%nat -> count_to (sends (seq 0 n)) r = 0%nat.
Proof.
  induction n as [|n [IH1 IH2]]; [done|]. rewrite seq_S, sends_snoc, seq_length, Nat.add_0_l. split.
  - rewrite rendezvous_app, IH1. cbn [andb]. unfold block. destruct (Nat.eqb_spec n 0) as [-> |Hn]; [done|]. cbn [app rendezvous mTo mTag]. rewrite (IH2 n) by done. rewrite (Nat.eqb_refl n). done.
  - intros r Hr. rewrite count_app, IH2 by lia. unfold block. destruct (Nat.eqb_spec n 0) as [-> |Hn]; [done|]. unfold count_to. cbn [app]. rewrite !filter_cons_False by (cbn; lia). done.
Qed.
Lemma ahead_stuck n perm i r : bij n perm -> perm !! i = Some r -> (i < r)%nat -> rendezvous (sends perm) (fun _ => 0%nat) = false.
Proof.
  intros (H1 & H2 & H3) Hi Hir. assert (E : perm = take i perm ++ r :: drop (S i) perm) by (by rewrite take_drop_middle).
  assert (Hl : length (take i perm) = i) by (rewrite take_length; apply lookup_lt_Some in Hi; lia).
  assert (HS : exists rest, sends perm = sends (take i perm) ++ block i r ++ rest).
  { assert (G : forall a b, exists rest, sends (a ++ b) = sends a ++ rest).
    { intros a b. induction b as [|p b [rest IH]] using rev_ind; [exists []; by rewrite !app_nil_r|]. rewrite app_assoc, sends_snoc, IH, <- app_assoc. eauto. }
    destruct (G (take i perm ++ [r]) (drop (S i) perm)) as [rest HR]. exists rest. rewrite <- app_assoc in HR. cbn [app] in HR. rewrite <- E, sends_snoc, Hl, <- app_assoc in HR. done. }
  destruct HS as [rest ->]. rewrite rendezvous_app. apply andb_false_iff. right.
  assert (C0 : count_to (sends (take i perm)) r = 0%nat).
  { rewrite E in H2. apply NoDup_app in H2 as (HT & HD & _). apply count_sends; [done|lia| |lia]. intros Hin. apply (HD _ Hin). left. }
  unfold block. destruct (Nat.eqb_spec r 0); [lia|]. destruct (Nat.eqb_spec i 0); cbn [app rendezvous mTo mTag].
  - rewrite C0. done.
  - apply andb_false_iff. right. destruct (Nat.eqb_spec r i); [lia|]. rewrite C0. done.
Qed.
Lemma none_ahead n perm : bij n perm -> (forall i r, perm !! i = Some r -> (r <= i)%nat) -> perm = seq 0 n.
Proof.
  intros HB HL. apply list_eq. intros i. destruct (decide (i < n)%nat) as [Hi|Hi].
  - rewrite (lookup_seq_lt 0 n i) by done. induction i as [i IH] using lt_wf_ind. destruct (bij_at n perm i HB Hi) as (r & E & _). rewrite E. f_equal. specialize (HL i r E).
    destruct (decide (r = i)) as [-> |Hne]; [lia|]. exfalso. apply Hne. assert (Hr : perm !! r = Some (0 + r)%nat) by (apply IH; lia). destruct HB as (_ & ND & _). eapply NoDup_lookup; eauto.
  - destruct HB as [H1 _]. rewrite !lookup_ge_None_2; [done|rewrite seq_length; lia|lia].
Qed.
