(** Proofs about exchangeGhosts: one round, and all ghosts together. *)
From Verif Require Import Base Containers Vec3 PlanModel DomainModel DomainSpec DomainProofs DomainProps SpeciesModel SpeciesProofs SimProofs DistSpec ExchModel ExchSpec ExchProofs ExchAtoms ExchElem ExchStart.
From Coq Require Import Reals Lra.
Local Open Scope nat_scope.

(** The data of an atom that its ghosts share. *)
Definition ng (a : xatom) : xatom := XA (xId a) (xType a) (xPos a) (xPlan a) (V3 0 0 0)%R 0%Z.
(** The ghost made from an atom. *)
Definition gcopy (fl : bool) (i j : nat) (t : Z) (a : xatom) : xatom :=
  XA (xId a) (xType a) (shift_pos (xPos a) i t) (if fl then match j with 0 => clearGhost (xPlan a) i 1 | _ => xPlan a end else xPlan a) (V3 0 0 0)%R 0%Z.
Definition gh (i j : nat) (a : xatom) : bool := ghost (xPlan a) i j.

Lemma gtake_all i j msg : i < 3 -> j < 2 -> forall p, let p1 := fold_left (xgtake i j) msg p in let news := seq (xpNext p) (length msg) in
  xpDom p1 = xpDom p /\ xpCap p1 = xpCap p /\ xpGCap p1 = xpGCap p /\ xpNext p1 = xpNext p + length msg /\ xpLocals p1 = xpLocals p /\
  xpGhosts p1 = xpGhosts p ++ news /\
  (forall a b, a < 3 -> b < 2 -> xpSend p1 a b = xpSend p a b ++ if decide (i < a) then List.filter (fun h => gh a b (xpMem p1 h)) news else []) /\
  (forall a b, xpRecv p1 a b = if decide (a = i /\ b = j) then xpRecv p i j ++ news else xpRecv p a b) /\
  (forall h, h < xpNext p -> xpMem p1 h = xpMem p h) /\
  map (fun h => ng (xpMem p1 h)) news = map (gcopy (xflag (xpDom p) i) i j (dShift (xpDom p) i j)) (map ng msg).
Proof.
  intros Hi Hj. induction msg as [|m msg IH]; intros p.
  - cbn [fold_left length seq map]. rewrite Nat.add_0_r, app_nil_r. repeat split; try done.
    + intros a b _ _. destruct (decide _); cbn; by rewrite app_nil_r.
    + intros a b. destruct (decide _) as [[-> ->]|]; [by rewrite app_nil_r|done].
  - cbn [fold_left length seq map]. destruct (IH (xgtake i j p m)) as (H1 & H2 & H3 & H4 & H5 & H6 & H7 & H8 & H9 & H10). clear IH.
    set (p1 := fold_left (xgtake i j) msg (xgtake i j p m)) in *.
    assert (E1 : xpNext (xgtake i j p m) = S (xpNext p)) by done. rewrite E1 in *.
    assert (Hm : ng (xpMem p1 (xpNext p)) = gcopy (xflag (xpDom p) i) i j (dShift (xpDom p) i j) (ng m)).
    { rewrite H9 by lia. unfold xgtake. xc. rewrite decide_True by done. unfold ng, gcopy. xc. destruct (xflag (xpDom p) i), j; done. }
    split; [done|]. split; [done|]. split; [done|]. split; [lia|]. split; [done|]. split; [rewrite H6; unfold xgtake; xc; by rewrite <- app_assoc|].
    split; [|split; [|split]].
    + intros a b Ha Hb. rewrite H7 by done. unfold xgtake at 1. xc. unfold add_sends.
      destruct (decide (i < a)) as [Hia|Hia].
      * rewrite decide_True by lia. cbn [List.filter].
        assert (Eg : gh a b (xpMem p1 (xpNext p)) = ghost (if xflag (xpDom p) i then match j with 0 => clearGhost (xPlan m) i 1 | _ => xPlan m end else xPlan m) a b).
        { unfold gh. apply (f_equal xPlan) in Hm. cbn in Hm. by rewrite Hm. }
        rewrite Eg. destruct (ghost _ a b); [by rewrite <- app_assoc|done].
      * rewrite decide_False by lia. done.
    + intros a b. rewrite H8. unfold xgtake. xc. destruct (decide (a = i /\ b = j)) as [[-> ->]|Hn].
      * rewrite decide_True by done. by rewrite <- app_assoc.
      * done.
    + intros h Hh. rewrite H9 by lia. unfold xgtake. xc. by rewrite decide_False by lia.
    + rewrite Hm, H10. done.
Qed.

(** Value lists. *)
Definition LG (p : xproc) : list xatom := map (fun h => ng (xpMem p h)) (xpLocals p ++ xpGhosts p).
Definition SV (p : xproc) (i j : nat) : list xatom := map (fun h => ng (xpMem p h)) (xpSend p i j).
Definition atr {A} (f : xproc -> list A) (sys : list xproc) (r : nat) : list A := match sys !! r with Some p => f p | None => [] end.
Lemma atr_Some {A} (f : xproc -> list A) sys r p : sys !! r = Some p -> atr f sys r = f p.
Proof. unfold atr. by intros ->. Qed.

(** All pointers in use. *)
Record live (p : xproc) : Prop := {
  lv_nodup : NoDup (xpLocals p ++ xpGhosts p);
  lv_bound : Forall (fun h => h < xpNext p) (xpLocals p ++ xpGhosts p);
  lv_send : forall i j h, i < 3 -> j < 2 -> h ∈ xpSend p i j -> h ∈ xpLocals p ++ xpGhosts p }.

Section ghost.
  Context (dims : vec3 Z) (Hd : grid_ok dims).
  Notation n := (n_proc dims).
  Definition flg (i : nat) : bool := bool_decide (1 < vget dims i)%Z.

  Record ginv (sys : list xproc) : Prop := {
    gi_dom : domains_of dims (map xpDom sys);
    gi_live : Forall live sys }.
  Lemma ginv_len sys : ginv sys -> length sys = n.
  Proof. intros [[H _] _]. by rewrite map_length in H. Qed.

  (** What one round does on one processor. *)
  Definition gstep (i j : nat) (sys : list xproc) (r : nat) (p p' : xproc) : Prop :=
    exists q, sys !! src dims i j r = Some q /\
    let news := seq (xpNext p) (length (xpSend q i j)) in
    p' = fold_left (xgtake i j) (xgpack i j q) p /\ length (xpGhosts p) + length (xpSend q i j) <= xpGCap p /\
    xpDom p' = xpDom p /\ xpCap p' = xpCap p /\ xpGCap p' = xpGCap p /\ xpNext p' = xpNext p + length (xpSend q i j) /\ xpLocals p' = xpLocals p /\
    xpGhosts p' = xpGhosts p ++ news /\
    (forall a b, a < 3 -> b < 2 -> xpSend p' a b = xpSend p a b ++ if decide (i < a) then List.filter (fun h => gh a b (xpMem p' h)) news else []) /\
    (forall a b, xpRecv p' a b = if decide (a = i /\ b = j) then xpRecv p i j ++ news else xpRecv p a b) /\
    (forall h, h < xpNext p -> xpMem p' h = xpMem p h) /\
    map (fun h => ng (xpMem p' h)) news = map (gcopy (flg i) i j (shf dims i j r)) (SV q i j).

  Lemma ground_at i j sys sys' : i < 3 -> j < 2 -> ginv sys -> xground i j sys = Ok sys' ->
    length sys' = length sys /\ forall r p, sys !! r = Some p -> exists p', sys' !! r = Some p' /\ gstep i j sys r p p'.
  Proof.
    intros Hi Hj HI H. unfold xground in H. apply mapO_Ok in H. pose proof (Forall2_length _ _ _ H) as Hl. split; [done|].
    intros r p Hp. destruct (Forall2_lookup_l _ _ _ _ _ H Hp) as (p' & Hp' & E). exists p'. split; [done|].
    pose proof (dom_at _ _ _ _ (gi_dom _ HI) Hp) as HD. destruct (dom_tables _ Hd _ _ HD) as (_ & _ & Ht). destruct (Ht i j Hi Hj) as (Hs & _ & Hsh).
    pose proof (flag_iff _ Hd _ _ i HD Hi) as Hfl. assert (Hr : r < n) by (rewrite <- (ginv_len _ HI); by eapply lookup_lt_Some).
    assert (HM : exists q, sys !! src dims i j r = Some q /\ xgunpack i j p (xgpack i j q) = Ok p').
    { destruct (xflag (xpDom p) i) eqn:Hf.
      - unfold from_source in E. rewrite Hs in E. destruct (aget _ _) as [msg| |] eqn:Em; cbn [obind] in E; try discriminate.
        apply aget_Ok in Em. rewrite list_lookup_fmap in Em. destruct (sys !! src dims i j r) as [q|]; [|done]. cbn in Em. injection Em as <-. eauto.
      - cbn [obind] in E. exists p. split; [|done]. symmetry in Hfl. apply bool_decide_eq_false in Hfl. pose proof (vget3_pos _ i Hd). destruct (dst_one _ Hd i j r Hi Hr) as [_ ->]; [lia|done]. }
    destruct HM as (q & Hq & HM). exists q. split; [done|]. unfold xgunpack in HM. destruct (decide _) as [Hc|]; [|discriminate]. injection HM as <-.
    unfold xgpack in Hc. rewrite map_length in Hc. split; [done|]. split; [done|].
    destruct (gtake_all i j (xgpack i j q) Hi Hj p) as (H1 & H2 & H3 & H4 & H5 & H6 & H7 & H8 & H9 & H10).
    unfold xgpack in *. rewrite map_length in *. rewrite Hfl, Hsh in H10.
    split; [exact H1|]. split; [exact H2|]. split; [exact H3|]. split; [exact H4|]. split; [exact H5|]. split; [exact H6|]. split; [exact H7|]. split; [exact H8|]. split; [exact H9|]. rewrite H10. unfold SV. rewrite !map_map. done.
  Qed.

  Lemma gstep_live i j sys r p p' : i < 3 -> j < 2 -> ginv sys -> p ∈ sys -> gstep i j sys r p p' -> live p'.
  Proof.
    intros Hi Hj HI Hp (q & Hq & _ & _ & _ & _ & _ & Hn & Hl & Hg & Hs & _). pose proof (proj1 (Forall_forall _ _) (gi_live _ HI) p Hp) as [N B S].
    set (news := seq _ _) in *.
    assert (HB : forall h, h ∈ xpLocals p ++ xpGhosts p -> h < xpNext p) by (by apply Forall_forall).
    split; rewrite ?Hl, ?Hg, ?app_assoc.
    - apply NoDup_app. split; [done|]. split; [|apply NoDup_seq]. intros h H1 H2. apply HB in H1. apply elem_of_seq in H2. lia.
    - apply Forall_app. split; [eapply Forall_impl; [exact B|]; cbn; intros; lia|]. apply Forall_forall. intros h Hh. apply elem_of_seq in Hh. lia.
    - intros a b h Ha Hb Hh. rewrite Hs in Hh by done. apply elem_of_app. apply elem_of_app in Hh as [Hh|Hh].
      + left. by apply (S a b h).
      + destruct (decide (i < a)); [|by apply elem_of_nil in Hh]. apply elem_of_filter_b in Hh as [Hh _]. by right.
  Qed.
  Lemma gstep_vals i j sys r p p' : i < 3 -> j < 2 -> ginv sys -> p ∈ sys -> gstep i j sys r p p' ->
    let N := map (gcopy (flg i) i j (shf dims i j r)) (atr (fun q => SV q i j) sys (src dims i j r)) in
    LG p' = LG p ++ N /\
    (forall a b, a < 3 -> b < 2 -> SV p' a b = SV p a b ++ if decide (i < a) then List.filter (gh a b) N else []) /\
    map (fun h => ng (xpMem p' h)) (xpLocals p') = map (fun h => ng (xpMem p h)) (xpLocals p) /\ locals p' = locals p.
  Proof.
    intros Hi Hj HI Hp (q & Hq & _ & _ & _ & _ & _ & Hn & Hl & Hg & Hs & _ & Hm & HN). pose proof (proj1 (Forall_forall _ _) (gi_live _ HI) p Hp) as [Nd B S].
    rewrite (atr_Some _ _ _ _ Hq). cbv zeta.
    assert (HB : forall h, h ∈ xpLocals p ++ xpGhosts p -> h < xpNext p) by (by apply Forall_forall).
    split; [|split; [|split]].
    - unfold LG. rewrite Hl, Hg, app_assoc, map_app, <- HN. f_equal. apply map_ext_elem. intros h Hh. rewrite Hm by (by apply HB). done.
    - intros a b Ha Hb. unfold SV at 1. rewrite Hs by done. rewrite map_app. f_equal.
      + apply map_ext_elem. intros h Hh. rewrite Hm; [done|]. apply HB. by apply (S a b h).
      + destruct (decide (i < a)); [|done]. rewrite <- HN, filter_map_comm. done.
    - rewrite Hl. apply map_ext_elem. intros h Hh. rewrite Hm; [done|]. apply HB. apply elem_of_app. by left.
    - unfold locals. rewrite Hl. apply map_ext_elem. intros h Hh. rewrite Hm; [done|]. apply HB. apply elem_of_app. by left.
  Qed.

  Lemma ground_inv i j sys sys' : i < 3 -> j < 2 -> ginv sys -> xground i j sys = Ok sys' -> ginv sys' /\ map xpDom sys' = map xpDom sys /\ map xpGCap sys' = map xpGCap sys /\
    map xpLocals sys' = map xpLocals sys /\ map locals sys' = map locals sys.
  Proof.
    intros Hi Hj HI H. destruct (ground_at i j sys sys' Hi Hj HI H) as [Hl HP].
    assert (HQ : forall r p', sys' !! r = Some p' -> exists p, sys !! r = Some p /\ gstep i j sys r p p').
    { intros r p' Hr. destruct (lookup_lt_is_Some_2 sys r) as [p Hp]; [rewrite <- Hl; by eapply lookup_lt_Some|]. exists p. split; [done|].
      destruct (HP r p Hp) as (p2 & Hp2 & HS). rewrite Hr in Hp2. by injection Hp2 as <-. }
    assert (HH : forall B (f : xproc -> B), (forall r p p', p ∈ sys -> gstep i j sys r p p' -> f p' = f p) -> map f sys' = map f sys).
    { intros B f Hf. apply list_eq. intros r. rewrite !list_lookup_fmap. destruct (sys' !! r) as [p'|] eqn:E; cbn.
      - destruct (HQ _ _ E) as (p & Hp & HS). rewrite Hp. cbn. f_equal. eapply Hf; [|done]. by eapply elem_of_list_lookup_2.
      - apply lookup_ge_None in E. rewrite (proj2 (lookup_ge_None _ _)) by lia. done. }
    assert (HD : map xpDom sys' = map xpDom sys). { apply HH. intros r p p' _ (q & _ & _ & _ & ? & _). done. }
    split; [|split; [done|split; [|split]]].
    - split; [rewrite HD; apply HI|]. apply Forall_lookup. intros r p' Hr. destruct (HQ _ _ Hr) as (p & Hp & HS). eapply gstep_live; eauto. by eapply elem_of_list_lookup_2.
    - apply HH. intros r p p' _ (q & _ & _ & _ & _ & _ & ? & _). done.
    - apply HH. intros r p p' _ (q & _ & _ & _ & _ & _ & _ & _ & ? & _). done.
    - apply HH. intros r p p' Hp HS. by apply (gstep_vals i j sys r p p' Hi Hj HI Hp HS).
  Qed.
  Lemma ground_vals i j sys sys' : i < 3 -> j < 2 -> ginv sys -> xground i j sys = Ok sys' -> forall r, r < n ->
    let N := map (gcopy (flg i) i j (shf dims i j r)) (atr (fun q => SV q i j) sys (src dims i j r)) in
    atr LG sys' r = atr LG sys r ++ N /\
    forall a b, a < 3 -> b < 2 -> atr (fun q => SV q a b) sys' r = atr (fun q => SV q a b) sys r ++ if decide (i < a) then List.filter (gh a b) N else [].
  Proof.
    intros Hi Hj HI H r Hr N. destruct (ground_at i j sys sys' Hi Hj HI H) as [Hl HP]. destruct (lookup_lt_is_Some_2 sys r) as [p Hp]; [by rewrite (ginv_len _ HI)|].
    destruct (HP r p Hp) as (p' & Hp' & HS). destruct (gstep_vals i j sys r p p' Hi Hj HI) as (V1 & V2 & _); [by eapply elem_of_list_lookup_2|done|].
    rewrite (atr_Some _ _ _ _ Hp'), (atr_Some _ _ _ _ Hp). split; [done|]. intros a b Ha Hb. rewrite (atr_Some _ _ _ _ Hp'), (atr_Some _ _ _ _ Hp). by apply V2.
  Qed.

  (** What an axis makes of one atom. *)
  Definition gmv (i j : nat) (u : nat * xatom) : nat * xatom := (dst dims i j u.1, gcopy (flg i) i j (shf dims i j (dst dims i j u.1)) u.2).
  Definition opt {A} (b : bool) (x : A) : list A := if b then [x] else [].
  Definition cop (i : nat) (u : nat * xatom) : list (nat * xatom) := u :: opt (gh i 0 u.2) (gmv i 0 u) ++ opt (gh i 1 u.2) (gmv i 1 u).
  Definition settled (i : nat) (sys : list xproc) : Prop :=
    forall r a b, r < n -> i <= a < 3 -> b < 2 -> atr (fun q => SV q a b) sys r ≡ₚ List.filter (gh a b) (atr LG sys r).

  Lemma TF_transfer {A} (f : nat -> list A) (g : nat -> A -> nat * A) i j : i < 3 ->
    (forall r a, (g r a).1 = r) -> flat_map (fun r => map (g r) (f (src dims i j r))) (seq 0 n) ≡ₚ map (fun u => g (dst dims i j u.1) u.2) (TF f n).
  Proof.
    intros Hi Hg. rewrite (flat_map_Perm _ (seq 0 n) (map (dst dims i j) (seq 0 n))) by (symmetry; by apply dst_perm). rewrite flat_map_map. unfold TF. rewrite map_flat_map.
    apply flat_map_ext_Perm. intros r Hr. apply elem_of_seq in Hr. rewrite src_dst by (done || lia). rewrite map_map. done.
  Qed.
  Lemma map_filter_opt {A B} (f : A -> bool) (g : A -> B) l : map g (List.filter f l) = flat_map (fun u => opt (f u) (g u)) l.
  Proof. induction l as [|x l IH]; cbn; [done|]. destruct (f x); cbn; by rewrite IH. Qed.
  Lemma map_flat_map_single {A B} (g : A -> B) l : map g l = flat_map (fun u => [g u]) l.
  Proof. induction l as [|x l IH]; cbn; [done|]. by rewrite IH. Qed.

  Lemma axis_T i (f f' : nat -> list xatom) : i < 3 ->
    (forall r, r < n -> f' r ≡ₚ f r ++ map (gcopy (flg i) i 0 (shf dims i 0 r)) (List.filter (gh i 0) (f (src dims i 0 r)))
                            ++ map (gcopy (flg i) i 1 (shf dims i 1 r)) (List.filter (gh i 1) (f (src dims i 1 r)))) ->
    TF f' n ≡ₚ flat_map (cop i) (TF f n).
  Proof.
    intros Hi Hf.
    assert (HJ : forall j, flat_map (fun r => map (pair r) (map (gcopy (flg i) i j (shf dims i j r)) (List.filter (gh i j) (f (src dims i j r))))) (seq 0 n)
                 ≡ₚ flat_map (fun u => opt (gh i j u.2) (gmv i j u)) (TF f n)).
    { intros j. rewrite <- map_filter_opt.
      transitivity (map (fun u => (fun r a => (r, gcopy (flg i) i j (shf dims i j r) a)) (dst dims i j u.1) u.2) (TF (fun r => List.filter (gh i j) (f r)) n)).
      - rewrite <- (TF_transfer (fun r => List.filter (gh i j) (f r)) (fun r a => (r, gcopy (flg i) i j (shf dims i j r) a)) i j Hi) by done. match goal with |- ?x ≡ₚ ?y => replace x with y; [done|] end. apply flat_map_ext_in. intros r _. by rewrite map_map.
      - match goal with |- ?x ≡ₚ ?y => replace x with y; [done|] end. unfold gmv. f_equal. unfold TF. rewrite filter_flat_map. apply flat_map_ext_in. intros r _. by rewrite filter_map_comm. }
    unfold cop. change (fun u => u :: opt (gh i 0 u.2) (gmv i 0 u) ++ opt (gh i 1 u.2) (gmv i 1 u)) with (fun u => [u] ++ (opt (gh i 0 u.2) (gmv i 0 u) ++ opt (gh i 1 u.2) (gmv i 1 u))).
    rewrite flat_map_app_Perm, flat_map_app_Perm, <- !HJ, <- map_flat_map_single, map_id. unfold TF at 1.
    etransitivity; [apply flat_map_ext_Perm with (g := fun r => map (pair r) (f r) ++ (map (pair r) (map (gcopy (flg i) i 0 (shf dims i 0 r)) (List.filter (gh i 0) (f (src dims i 0 r))))
                            ++ map (pair r) (map (gcopy (flg i) i 1 (shf dims i 1 r)) (List.filter (gh i 1) (f (src dims i 1 r))))))|].
    { intros r Hr. apply elem_of_seq in Hr. rewrite Hf by lia. by rewrite !map_app. }
    rewrite flat_map_app_Perm, flat_map_app_Perm. done.
  Qed.

  Lemma axis_step i s0 s1 s2 : i < 3 -> ginv s0 -> settled i s0 -> xground i 0 s0 = Ok s1 -> xground i 1 s1 = Ok s2 ->
    ginv s2 /\ settled (S i) s2 /\ TF (atr LG s2) n ≡ₚ flat_map (cop i) (TF (atr LG s0) n) /\ map xpDom s2 = map xpDom s0 /\ map xpLocals s2 = map xpLocals s0 /\ map locals s2 = map locals s0.
  Proof.
    intros Hi HI HS H1 H2. destruct (ground_inv i 0 s0 s1 Hi ltac:(lia) HI H1) as (I1 & D1 & _ & P1 & L1).
    destruct (ground_inv i 1 s1 s2 Hi ltac:(lia) I1 H2) as (I2 & D2 & _ & P2 & L2).
    pose proof (ground_vals i 0 s0 s1 Hi ltac:(lia) HI H1) as V1. pose proof (ground_vals i 1 s1 s2 Hi ltac:(lia) I1 H2) as V2.
    assert (E0 : forall r, r < n -> atr (fun q => SV q i 0) s0 (src dims i 0 r) ≡ₚ List.filter (gh i 0) (atr LG s0 (src dims i 0 r))) by (intros r Hr; apply HS; [by apply src_lt|lia|lia]).
    assert (E1 : forall r, r < n -> atr (fun q => SV q i 1) s1 (src dims i 1 r) ≡ₚ List.filter (gh i 1) (atr LG s0 (src dims i 1 r))).
    { intros r Hr. destruct (V1 (src dims i 1 r)) as [_ V]; [by apply src_lt|]. rewrite V by lia. rewrite decide_False by lia. rewrite app_nil_r. apply HS; [by apply src_lt|lia|lia]. }
    split; [done|]. split; [|split; [|split; [congruence|split; congruence]]].
    - intros r a b Hr Ha Hb. destruct (V1 r Hr) as [W1 X1]. destruct (V2 r Hr) as [W2 X2]. rewrite X2, X1, W2, W1 by lia. rewrite !decide_True by lia.
      rewrite !List.filter_app. rewrite HS by lia. done.
    - apply axis_T; [done|]. intros r Hr. destruct (V1 r Hr) as [W1 _]. destruct (V2 r Hr) as [W2 _]. rewrite W2, W1, <- app_assoc. rewrite (Permutation_map _ (E0 r Hr)), (Permutation_map _ (E1 r Hr)). done.
  Qed.

  Definition copies (u : nat * xatom) : list (nat * xatom) := flat_map (cop 2) (flat_map (cop 1) (cop 0 u)).
  Lemma ghosts_T s0 s2 : ginv s0 -> settled 0 s0 -> foldM (fun sys ij => xground ij.1 ij.2 sys) s0 dirs = Ok s2 ->
    ginv s2 /\ TF (atr LG s2) n ≡ₚ flat_map copies (TF (atr LG s0) n) /\ map xpDom s2 = map xpDom s0 /\ map xpLocals s2 = map xpLocals s0 /\ map locals s2 = map locals s0.
  Proof.
    intros HI HS H. unfold dirs in H. cbn [foldM fst snd] in H.
    destruct (xground 0 0 s0) as [a1| |] eqn:A1; try discriminate. cbn [obind] in H. destruct (xground 0 1 a1) as [a2| |] eqn:A2; try discriminate. cbn [obind] in H.
    destruct (axis_step 0 s0 a1 a2 ltac:(lia) HI HS A1 A2) as (I1 & S1 & T1 & D1 & P1 & L1).
    destruct (xground 1 0 a2) as [a3| |] eqn:A3; try discriminate. cbn [obind] in H. destruct (xground 1 1 a3) as [a4| |] eqn:A4; try discriminate. cbn [obind] in H.
    destruct (axis_step 1 a2 a3 a4 ltac:(lia) I1 S1 A3 A4) as (I2 & S2 & T2 & D2 & P2 & L2).
    destruct (xground 2 0 a4) as [a5| |] eqn:A5; try discriminate. cbn [obind] in H. destruct (xground 2 1 a5) as [a6| |] eqn:A6; try discriminate. cbn [obind] in H. injection H as <-.
    destruct (axis_step 2 a4 a5 a6 ltac:(lia) I2 S2 A5 A6) as (I3 & S3 & T3 & D3 & P3 & L3).
    split; [done|]. split; [|split; [congruence|split; congruence]].
    rewrite T3, (flat_map_Perm _ _ _ T2), (flat_map_Perm _ _ _ (flat_map_Perm _ _ _ T1)). rewrite !flat_map_flat_map. 
    apply flat_map_ext_Perm. intros u _. unfold copies. by rewrite flat_map_flat_map.
  Qed.
End ghost.
