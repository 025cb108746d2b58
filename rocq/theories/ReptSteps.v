(** The steps of the reptation move. *)
From stdpp Require Import gmap.
From Verif Require Import Base Vec3 BoxSpec McCellModel DomainModel SpeciesModel SpeciesProofs CellListModel CellListSpec CellListProofs
  PairListModel PairListSpec EnergyModel EnergySpec EnergyProofs MoveModel MoveSpec MoveProofs CfbModel CfbSpec CfbProofs CfbSteps ReptModel ReptSpec ReptProofs.
From Coq Require Import Reals Lra.
Local Open Scope R_scope.

Section Steps.
  Context (M cap : nat) (HM : (2 <= M)%nat) (toGen : vec3 R -> vec3 R) (dist2 : vec3 R -> vec3 R -> R) (wrap : vec3 R -> vec3 R) (sep : vec3 R -> vec3 R -> vec3 R).
  Context (lens : vec3 R) (n : vec3 Z).
  Context (u : R -> Z -> Z -> R) (cut : R) (ext : option (vec3 R -> Z -> R)) (beta : R).
  Context (HL : positive3 lens) (Hc : 0 < cut) (HG : grid_of lens cut n).
  Context (Hadj : forall r q, primary (toGen r) -> primary (toGen q) -> dist2 r q < cut * cut ->
             adjacent n (ccell n (toGen r)) (ccell n (toGen q))).
  Context (Hcut : forall r t1 t2, cut * cut <= r -> u r t1 t2 = 0).
  Context (Hd : forall r q, dist2 r q = dist2 q r) (Hu : forall r t1 t2, u r t1 t2 = u r t2 t1).
  Local Notation hold := (holding M cap toGen lens cut n).
  Local Notation SE m := (site_energy dist2 m u ext).

  (** ** Energy of one atom *)
  Lemma atom_pair m A e s Q : NoDup A -> e ∈ A -> (hold (without A e) (sCells s) Q \/ hold A (sCells s) Q) ->
    (forall b, b ∈ without A e -> Q b = sPos s b) -> primary (toGen (sPos s e)) ->
    pair_atom M toGen dist2 m u s e = Ok (sum_over (without A e) (w dist2 m u (sPos s) (sTy s) e)).
  Proof.
    intros HA He Hh HQ Hp.
    assert (NoDup [e]) as H1 by apply NoDup_singleton. assert ([e] ⊆ A) as H2. { intros a Ha. by apply elem_of_list_singleton in Ha as ->. }
    pose proof (pair_eq M cap HM toGen dist2 wrap lens n m u cut (fun _ _ => 0) HL Hc HG Hadj Hcut A [e] HA H1 H2 1 (Nat.le_refl 1) s Q 0) as X.
    rewrite rem_without in X. change 1%nat with (length [e]) in X. rewrite (rem_full A [e]) in X. apply X; [cbn; lia|done|done|done].
  Qed.
  Lemma ins_eq m A e pos ty : NoDup A -> e ∈ A -> (forall i j, m i j = m j i) ->
    SE m A pos ty = SE m (without A e) pos ty + (sum_over (without A e) (w dist2 m u pos ty e) + match ext with Some f => f (pos e) (ty e) | None => 0 end).
  Proof.
    intros HA He Hm. pose proof (without_perm A e HA He) as HP. unfold site_energy.
    change (pair_energy dist2 m u A pos ty) with (half_pairs A (w dist2 m u pos ty)).
    change (pair_energy dist2 m u (without A e) pos ty) with (half_pairs (without A e) (w dist2 m u pos ty)).
    rewrite (half_permut _ _ _ HP), half_cons; [|rewrite without_in; tauto|intros; by apply w_sym].
    unfold external_energy at 1. rewrite (sum_perm _ _ _ HP), sum_cons. unfold external_energy. ring.
  Qed.
  (** The masks of the atom itself matter only. *)
  Lemma end_energy mk m A e s Q pos d u2 : NoDup A -> e ∈ A -> (forall i j, m i j = m j i) -> (forall b, b ∈ without A e -> mask_of mk e b = m e b) ->
    (hold (without A e) (sCells s) Q \/ hold A (sCells s) Q) -> (forall b, b ∈ without A e -> Q b = pos b) -> (forall b, b ∈ without A e -> sPos s b = pos b) ->
    primary (toGen (sPos s e)) ->
    rp_energy M toGen dist2 u None ext s mk e d u2 = Ok (SE m A (move pos e (sPos s e)) (sTy s) - SE m (without A e) pos (sTy s)).
  Proof.
    intros HA He Hm Hmk Hh HQ Hs Hp. unfold rp_energy. rewrite (atom_pair _ A e s Q HA He Hh) by (done || (intros b Hb; by rewrite HQ, Hs)). cbn [obind]. f_equal.
    rewrite (ins_eq m A e _ _ HA He Hm). rewrite move_eq.
    rewrite (site_ext dist2 u ext (without A e) m m pos (move pos e (sPos s e)) (sTy s) (sTy s)); [|intros a [_ Ha]%without_in; by rewrite move_ne|done|done].
    rewrite (sum_ext (w dist2 (mask_of mk) u (sPos s) (sTy s) e) (w dist2 m u (move pos e (sPos s e)) (sTy s) e)).
    2:{ intros b Hb. unfold w. rewrite Hmk by done. rewrite move_eq, move_ne by (by apply without_in in Hb as [_ ?]). by rewrite (Hs b Hb). }
    unfold ext_atom. destruct ext; ring.
  Qed.

  (** ** Deleting and adding *)
  Local Notation tr p len b := (wrap (vadd p (vscale (-1) (vscale len b)))).
  Lemma rp_delete_ok mk m A e p s u2 bs : NoDup A -> e ∈ A -> p <> e -> (forall i j, m i j = m j i) -> (forall b, b ∈ without A e -> mask_of mk e b = m e b) ->
    hold A (sCells s) (sPos s) -> let len := sqrt (dist2 (sPos s p) (sPos s e)) in
    (forall b, b ∈ bs -> primary (toGen (tr (sPos s p) len b))) ->
    exists s', rp_delete M toGen dist2 wrap sep u None ext beta s mk e p u2 bs =
        Ok (s', weight_of beta (map (fun q => SE m A (move (sPos s) e q) (sTy s) - SE m (without A e) (sPos s) (sTy s))
                 (sPos s e :: map (fun b => tr (sPos s p) len b) bs))) /\
      sCells s' = sCells s /\ sTy s' = sTy s /\ forall b, b <> e -> sPos s' b = sPos s b.
  Proof.
    intros HA He Hpe Hm Hmk Hh len Hpr. unfold rp_delete. cbv zeta. fold len.
    assert (primary (toGen (sPos s e))) as Hp by (by apply (holding_prim M cap HM toGen lens cut n A HL Hc HG _ _ e Hh)).
    rewrite (end_energy mk m A e s (sPos s) (sPos s)); [|done|done|done|done|by right|done|done|done]. cbn [obind].
    set (f := fun q => SE m A (move (sPos s) e q) (sTy s) - SE m (without A e) (sPos s) (sTy s)).
    change (SE m A (move (sPos s) e (sPos s e)) (sTy s) - SE m (without A e) (sPos s) (sTy s)) with (f (sPos s e)).
    cut (forall bs x, (forall b, b ∈ bs -> primary (toGen (tr (sPos s p) len b))) -> sCells x.1 = sCells s -> sTy x.1 = sTy s -> (forall b, b <> e -> sPos x.1 b = sPos s b) ->
      exists s', foldM (fun x b => let s0 := rp_try wrap x.1 e (sPos s p) len b in
         let? t := rp_energy M toGen dist2 u None ext s0 mk e b u2 in Ok (s0, x.2 + boltzmann beta t)) x bs =
         Ok (s', x.2 + weight_of beta (map f (map (fun b => tr (sPos s p) len b) bs))) /\
       sCells s' = sCells s /\ sTy s' = sTy s /\ forall b, b <> e -> sPos s' b = sPos s b).
    { intros Loop. destruct (Loop bs (s, boltzmann beta (f (sPos s e)))) as (s' & E & H2); [done..|]. exists s'. split; [|done]. cbv zeta in E. rewrite E. cbn [fst snd].
      unfold weight_of. cbn [map]. rewrite sum_cons. done. }
    clear bs Hpr. induction bs as [|b bs IH]; intros [x W] Hpr E1 E2 E3; cbn [fst snd] in *.
    - exists x. cbn [foldM map]. split; [|done]. unfold weight_of. rewrite sum_nil. by rewrite Rplus_0_r.
    - cbn [foldM fst snd]. cbv zeta. set (s0 := rp_try wrap x e (sPos s p) len b).
      rewrite (end_energy mk m A e s0 (sPos s) (sPos s)); [|done|done|done|done|right; unfold s0; cbn [rp_try sCells]; by rewrite E1|done| |].
      2:{ intros b' [_ Hb']%without_in. unfold s0. cbn [rp_try sPos]. rewrite move_ne by done. by apply E3. }
      2:{ unfold s0. cbn [rp_try sPos]. rewrite move_eq. apply Hpr. left. }
      cbn [obind]. replace (sPos s0 e) with (tr (sPos s p) len b) by (unfold s0; cbn [rp_try sPos]; by rewrite move_eq).
      replace (sTy s0) with (sTy s) by (unfold s0; by rewrite <- E2). fold (f (tr (sPos s p) len b)).
      destruct (IH (s0, W + boltzmann beta (f (tr (sPos s p) len b)))) as (s' & E & H2); cbn [fst snd].
      + intros b' Hb'. apply Hpr. by right.
      + done.
      + done.
      + intros b' Hb'. unfold s0. cbn [rp_try sPos]. rewrite move_ne by done. by apply E3.
      + exists s'. split; [|done]. cbv zeta in E. rewrite E. cbn [fst snd map]. unfold weight_of. rewrite sum_cons. unfold boltzmann. f_equal. f_equal. ring.
  Qed.
  Lemma rp_add_ok mk m A e p s Q pos u2 len bs k b0 : NoDup A -> e ∈ A -> p ∈ A -> p <> e -> (forall i j, m i j = m j i) -> (forall b, b ∈ without A e -> mask_of mk e b = m e b) ->
    hold (without A e) (sCells s) Q -> (forall b, b ∈ without A e -> Q b = pos b) -> (forall b, b ∈ without A e -> sPos s b = pos b) ->
    (forall b, b ∈ bs -> primary (toGen (tr (pos p) len b))) -> bs !! k = Some b0 ->
    exists s', rp_add M toGen dist2 wrap u None ext beta s mk e p u2 len bs k =
        Ok (s', weight_of beta (map (fun b => SE m A (move pos e (tr (pos p) len b)) (sTy s) - SE m (without A e) pos (sTy s)) bs)) /\
      sCells s' = sCells s /\ sTy s' = sTy s /\ sPos s' e = tr (pos p) len b0 /\ forall b, b <> e -> sPos s' b = sPos s b.
  Proof.
    intros HA He HpA Hpe Hm Hmk Hh HQ Hs Hpr Hk. unfold rp_add. cbv zeta. assert (sPos s p = pos p) as Epp by (apply Hs, without_in; done).
    set (f := fun b => SE m A (move pos e (tr (pos p) len b)) (sTy s) - SE m (without A e) pos (sTy s)).
    assert (forall bs (x : mcs * list (vec3 R) * R), (forall b, b ∈ bs -> primary (toGen (tr (pos p) len b))) -> sCells x.1.1 = sCells s -> sTy x.1.1 = sTy s -> (forall b, b <> e -> sPos x.1.1 b = sPos s b) ->
      exists s', foldM (fun (x : mcs * list (vec3 R) * R) b => let s0 := rp_try wrap x.1.1 e (sPos s p) len b in
         let? t := rp_energy M toGen dist2 u None ext s0 mk e b u2 in Ok (s0, x.1.2 ++ [sPos s0 e], x.2 + boltzmann beta t)) x bs =
         Ok (s', x.1.2 ++ map (fun b => tr (pos p) len b) bs, x.2 + weight_of beta (map f bs)) /\
       sCells s' = sCells s /\ sTy s' = sTy s /\ forall b, b <> e -> sPos s' b = sPos s b) as Loop.
    { clear bs Hpr Hk. induction bs as [|b bs IH]; intros [[x ps] W] Hpr E1 E2 E3; cbn [fst snd] in *.
      - exists x. cbn [foldM map]. split; [|done]. unfold weight_of. rewrite sum_nil, app_nil_r. by rewrite Rplus_0_r.
      - cbn [foldM fst snd]. cbv zeta. set (s0 := rp_try wrap x e (sPos s p) len b).
        assert (sPos s0 e = tr (pos p) len b) as Ee by (unfold s0; cbn [rp_try sPos]; by rewrite move_eq, Epp).
        rewrite (end_energy mk m A e s0 Q pos); [|done|done|done|done|left; unfold s0; cbn [rp_try sCells]; by rewrite E1|done| |].
        2:{ intros b' Hb'. unfold s0. cbn [rp_try sPos]. rewrite move_ne by (by apply without_in in Hb' as [_ ?]). rewrite E3 by (by apply without_in in Hb' as [_ ?]). by apply Hs. }
        2:{ rewrite Ee. apply Hpr. left. }
        cbn [obind]. rewrite Ee.
        replace (sTy s0) with (sTy s) by (unfold s0; by rewrite <- E2). fold (f b).
        destruct (IH (s0, ps ++ [tr (pos p) len b], W + boltzmann beta (f b))) as (s' & E & H2); cbn [fst snd].
        + intros b' Hb'. apply Hpr. by right.
        + done.
        + done.
        + intros b' Hb'. unfold s0. cbn [rp_try sPos]. rewrite move_ne by done. by apply E3.
        + exists s'. split; [|done]. cbv zeta in E. rewrite E. cbn [fst snd map]. unfold weight_of. rewrite sum_cons. unfold boltzmann. rewrite <- app_assoc. cbn [app]. f_equal. f_equal. ring. }
    destruct (Loop bs (s, [], 0)) as (s' & E & H1 & H2 & H3); [done..|]. cbv zeta in E. rewrite E. cbn [obind fst snd app]. unfold aget. rewrite list_lookup_fmap, Hk. cbn [fmap option_fmap option_map obind].
    eexists. split; [rewrite Rplus_0_l; reflexivity|]. cbn [sCells sTy sPos]. split; [done|]. split; [done|]. split; [by rewrite move_eq|].
    intros b Hb. rewrite move_ne by done. by apply H3.
  Qed.

  (** ** Junctions *)
  Definition retypes (ty : nat -> Z) (hs : list (nat * Z)) : nat -> Z := fold_left (fun ty x a => if decide (a = x.1) then x.2 else ty a) hs ty.
  Lemma retypes_val hs a v : (forall t, (a, t) ∈ hs -> t = v) -> forall ty, (exists t, (a, t) ∈ hs) \/ ty a = v -> retypes ty hs a = v.
  Proof.
    induction hs as [|[h t] hs IH]; intros H ty Hor.
    - destruct Hor as [(t & Ht)|Hv]; [by apply elem_of_nil in Ht|done].
    - unfold retypes. cbn [fold_left fst snd]. apply IH; [intros t' Ht'; apply H; by right|].
      destruct (decide (a = h)) as [->|Hne]; [right; apply H; left|]. destruct Hor as [(t' & [Ht'|Ht']%elem_of_cons)|]; [congruence|left; eauto|by right].
  Qed.
  Lemma retypes_keep hs ty a : (forall t, (a, t) ∉ hs) -> retypes ty hs a = ty a.
  Proof. intros H. apply retypes_val; [|by right]. intros t Ht. by apply H in Ht. Qed.

  Lemma junction_ok mk m S s Q (key : nat * Z * Z -> nat) (mol : list nat) plus js :
    NoDup S -> (forall i j, m i j = m j i) -> (forall a b, a ∈ S -> b ∈ S -> mask_of mk a b = m a b) -> hold S (sCells s) Q -> (forall a, a ∈ S -> Q a = sPos s a) ->
    (forall jn, jn ∈ js -> aget mol (if (plus : bool) then Datatypes.S jn.1.1 else jn.1.1) = Ok (key jn) /\ key jn ∈ S) ->
    (forall jn, jn ∈ js -> sTy s (key jn) = if plus then jn.2 else jn.1.2) ->
    let ty' := retypes (sTy s) (map (fun jn => (key jn, if plus then jn.1.2 else jn.2)) js) in
    exists s', junction_factor M toGen dist2 u ext beta s mk mol plus js = Ok (s', exp (- beta * (SE m S (sPos s) ty' - SE m S (sPos s) (sTy s)))) /\
      sPos s' = sPos s /\ sCells s' = sCells s /\ forall a, sTy s' a = sTy s a.
  Proof.
    intros HS Hm Hmk Hh HQ Hkey Hold. cbv zeta. unfold junction_factor.
    assert (forall js x, (forall jn, jn ∈ js -> aget mol (if plus then Datatypes.S jn.1.1 else jn.1.1) = Ok (key jn) /\ key jn ∈ S) ->
      sPos x.1 = sPos s -> sCells x.1 = sCells s ->
      exists s', foldM (fun (x : mcs * R) jn =>
        let '(j, l, up) := jn in
        let? h := aget mol (if plus then Datatypes.S j else j) in
        let? oldE := pair_atom M toGen dist2 (mask_of mk) u x.1 h in
        let s' := set_type x.1 h (if plus then l else up) in
        let? newE := pair_atom M toGen dist2 (mask_of mk) u s' h in
        Ok (s', x.2 * boltzmann beta ((newE + ext_atom ext s' h) - (oldE + ext_atom ext x.1 h)))) x js =
        Ok (s', x.2 * exp (- beta * (SE m S (sPos s) (retypes (sTy x.1) (map (fun jn => (key jn, if plus then jn.1.2 else jn.2)) js)) - SE m S (sPos s) (sTy x.1)))) /\
        sPos s' = sPos s /\ sCells s' = sCells s /\ sTy s' = retypes (sTy x.1) (map (fun jn => (key jn, if plus then jn.1.2 else jn.2)) js)) as Loop.
    { clear js Hkey Hold. induction js as [|[[j l] up] js IH]; intros [x W] Hkey E1 E2; cbn [fst snd] in *.
      - exists x. cbn [foldM map]. split; [|done]. unfold retypes. cbn [fold_left]. rewrite Rminus_diag_eq by done. by rewrite Rmult_0_r, exp_0, Rmult_1_r.
      - cbn [foldM fst snd]. destruct (Hkey (j, l, up)) as [Ek HkS]; [left|]. cbn [fst] in Ek. rewrite Ek. cbn [obind]. set (h := key (j, l, up)) in *.
        assert (primary (toGen (sPos s h))) as Hp. { rewrite <- HQ by done. by apply (holding_prim M cap HM toGen lens cut n S HL Hc HG _ _ h Hh). }
        set (t := if plus then l else up). set (s1 := set_type x h t).
        assert (forall s0, sPos s0 = sPos s -> sCells s0 = sCells s -> exists e, pair_atom M toGen dist2 (mask_of mk) u s0 h = Ok e /\
                  SE m S (sPos s) (sTy s0) = SE m (without S h) (sPos s) (sTy s0) + (e + ext_atom ext s0 h)) as Hone.
        { intros s0 F1 F2. eexists. split.
          - apply (atom_pair _ S h s0 Q HS HkS); [right; by rewrite F2|intros b [Hb _]%without_in; rewrite F1; by apply HQ|by rewrite F1].
          - rewrite (ins_eq m S h _ _ HS HkS Hm). rewrite F1. unfold ext_atom. rewrite F1.
            rewrite (sum_ext (w dist2 (mask_of mk) u (sPos s) (sTy s0) h) (w dist2 m u (sPos s) (sTy s0) h)); [done|].
            intros b [Hb _]%without_in. unfold w. by rewrite Hmk. }
        destruct (Hone x E1 E2) as (e1 & -> & G1). cbn [obind]. destruct (Hone s1 E1 E2) as (e2 & F & G2). fold t. fold s1. rewrite F. cbn [obind].
        destruct (IH (s1, W * boltzmann beta (e2 + ext_atom ext s1 h - (e1 + ext_atom ext x h)))) as (s' & -> & H1 & H2 & H3); cbn [fst snd].
        + intros jn Hjn. apply Hkey. by right.
        + done.
        + done.
        + exists s'. split; [|done]. f_equal. f_equal. cbn [map]. change (retypes (sTy x) ((key (j, l, up), if plus then (j, l, up).1.2 else (j, l, up).2) :: map (fun jn => (key jn, if plus then jn.1.2 else jn.2)) js))
            with (retypes (sTy s1) (map (fun jn => (key jn, if plus then jn.1.2 else jn.2)) js)).
          unfold boltzmann. rewrite Rmult_assoc, <- exp_plus. f_equal. f_equal.
          assert (SE m (without S h) (sPos s) (sTy s1) = SE m (without S h) (sPos s) (sTy x)) as G3.
          { apply site_ext; [done| |done]. intros a [_ Ha]%without_in. unfold s1. cbn [set_type sTy]. by rewrite decide_False. }
          rewrite G2, G3, G1. ring. }
    destruct (Loop js (s, 1) Hkey eq_refl eq_refl) as (s1 & E0 & H1 & H2 & H3). cbv zeta in E0 |- *. rewrite E0. cbn [obind fst snd] in *.
    assert (forall js0 s0, (forall jn, jn ∈ js0 -> jn ∈ js) ->
      exists s', foldM (fun s jn => let '(j, l, up) := jn in
        let? h := aget mol (if plus then Datatypes.S j else j) in Ok (set_type s h (if plus then up else l))) s0 js0 = Ok s' /\
        sPos s' = sPos s0 /\ sCells s' = sCells s0 /\ sTy s' = retypes (sTy s0) (map (fun jn => (key jn, if plus then jn.2 else jn.1.2)) js0)) as Back.
    { induction js0 as [|[[j l] up] js0 IH]; intros s0 Hsub; [by exists s0|]. cbn [foldM]. destruct (Hkey (j, l, up)) as [Ek _]; [apply Hsub; left|]. cbn [fst] in Ek. rewrite Ek. cbn [obind].
      destruct (IH (set_type s0 (key (j, l, up)) (if plus then up else l))) as (s' & -> & G1 & G2 & G3); [intros jn Hj; apply Hsub; by right|]. exists s'. done. }
    destruct (Back js s1 ltac:(done)) as (s2 & -> & G1 & G2 & G3). cbn [obind]. exists s2. rewrite Rmult_1_l. split; [done|]. split; [congruence|]. split; [congruence|].
    intros a. rewrite G3. apply retypes_val.
    - intros t (jn & [= -> ->] & Hjn)%elem_of_list_fmap. symmetry. by apply Hold.
    - destruct (decide (a ∈ map key js)) as [(jn & -> & Hjn)%elem_of_list_fmap|Hn].
      + left. eexists. apply elem_of_list_fmap. by exists jn.
      + right. rewrite H3. apply retypes_keep. intros t (jn & [= -> _] & Hjn)%elem_of_list_fmap. apply Hn, elem_of_list_fmap. eauto.
  Qed.

  (** ** Moving the chain *)
  Context (A c : list nat) (HA : NoDup A) (Hcd : NoDup c) (HcA : c ⊆ A) (Hn : (2 <= length c)%nat).
  Local Notation at_ := (nth_atom c).
  Local Notation tail := (nth_atom c 0).
  Local Notation head := (nth_atom c (length c - 1)).
  Lemma take_in k i : (i < length c)%nat -> at_ i ∈ take k c <-> (i < k)%nat.
  Proof.
    intros Hi. split.
    - intros Hin. apply elem_of_list_lookup in Hin as [j Hj]. pose proof (lookup_lt_Some _ _ _ Hj) as Hl. rewrite take_length in Hl.
      rewrite lookup_take in Hj by lia. assert (j = i); [|lia]. eapply NoDup_lookup; [exact Hcd|exact Hj|by apply nth_in].
    - intros Hk. apply elem_of_list_lookup. exists i. rewrite lookup_take by done. by apply nth_in.
  Qed.
  Lemma midway_S k (new old : nat -> vec3 R) b : (k < length c)%nat -> midway c (S k) new old b = move (midway c k new old) (at_ k) (new (at_ k)) b.
  Proof.
    intros Hk. unfold midway. rewrite (take_S_r c k (at_ k)) by (by apply nth_in). destruct (decide (b = at_ k)) as [->|Hne].
    - rewrite move_eq. rewrite decide_True; [done|]. apply elem_of_app. right. left.
    - rewrite move_ne by done. apply decide_ext. rewrite elem_of_app, elem_of_list_singleton. tauto.
  Qed.
  Lemma shift_ok s pos q : hold (without A tail) (sCells s) pos -> (tail < cap)%nat -> (forall b, b <> tail -> sPos s b = pos b) -> sPos s tail = q ->
    (forall b, b ∈ A -> primary (toGen (pos b))) -> primary (toGen q) ->
    let new := reptated c pos q in
    (forall k, (k <= length c)%nat -> ~ crowded toGen n (M - 1) A (midway c k new pos)) ->
    exists s', rp_shift M toGen s c = Ok s' /\ (forall b, sPos s' b = new b) /\ sTy s' = sTy s /\ hold A (sCells s') new.
  Proof.
    intros Hh Hcap Hs Hq Hpr Hpq new Hcr. unfold rp_shift.
    assert (forall i, (i < length c)%nat -> aget c i = Ok (at_ i)) as Eg by (intros i Hi; unfold aget; by rewrite nth_in).
    rewrite !Eg by lia. cbn [obind]. rewrite Hq.
    assert (forall i, (i < length c)%nat -> primary (toGen (new (at_ i)))) as Hnp.
    { intros i Hi. unfold new. rewrite rep_at by done. case_decide; [|done]. apply Hpr, HcA, nth_elem. lia. }
    assert (new tail = pos (at_ 1)) as En0. { unfold new. rewrite rep_at by (done || lia). by rewrite decide_True by lia. }
    assert (sPos s (at_ 1) = pos (at_ 1)) as E1 by (apply Hs, at_ne; done || lia).
    rewrite move_eq, E1, <- En0.
    assert (forall b, midway c 0 new pos b = pos b) as Em0. { intros b. unfold midway. cbn [firstn]. by rewrite decide_False by apply not_elem_of_nil. }
    assert (forall b, move pos tail (new tail) b = midway c 1 new pos b) as Em1. { intros b. rewrite midway_S by lia. unfold move. case_decide; [done|]. symmetry. apply Em0. }
    destruct (holding_add M cap HM toGen lens cut n HL Hc HG A (without A tail) (sCells s) pos tail (new tail) Hh) as (l & -> & Hl).
    { rewrite without_in. tauto. }
    { intros b. rewrite without_in. destruct (decide (b = tail)) as [->|]; [|tauto]. split; [by right|]. intros _. apply HcA, nth_elem. lia. }
    { done. }
    { apply Hnp. lia. }
    { intros Hx. apply (Hcr 1%nat ltac:(lia)). eapply (crowd_sub M toGen n A A); [done| |exact Hx]. intros b _. apply Em1. }
    cbn [obind].
    assert (forall k, (k <= length c - 2)%nat -> exists s', foldM (fun s i =>
        let? a := aget c i in let? b := aget c (S i) in
        update_cell M toGen (MC (move (sPos s) a (sPos s b)) (sTy s) (sCells s)) a) (MC (move (sPos s) tail (new tail)) (sTy s) l) (seq 1 k) = Ok s' /\
        (forall b, sPos s' b = midway c (S k) new pos b) /\ sTy s' = sTy s /\ hold A (sCells s') (midway c (S k) new pos)) as Loop.
    { induction k as [|k IH]; intros Hk.
      - eexists. cbn [seq foldM]. split; [reflexivity|]. cbn [sPos sTy sCells]. split; [|split; [done|]].
        + intros b. rewrite <- Em1. unfold move. case_decide; [done|]. by apply Hs.
        + eapply holding_ext; [exact Hl|]. intros b _. apply Em1.
      - destruct (IH ltac:(lia)) as (s1 & E & Hp1 & Ht1 & Hh1). rewrite seq_S, foldM_app, E. cbn [obind foldM Nat.add].
        rewrite !Eg by lia. cbn [obind]. rewrite Hp1.
        assert (midway c (S k) new pos (at_ (S (S k))) = new (at_ (S k))) as Ev.
        { unfold midway. rewrite decide_False by (rewrite take_in by lia; lia). unfold new. rewrite rep_at by (done || lia). by rewrite decide_True by lia. }
        rewrite Ev. unfold update_cell. cbn [sPos sTy sCells]. rewrite move_eq.
        destruct (holding_update M cap HM toGen lens cut n A HL Hc HG (sCells s1) _ (at_ (S k)) (new (at_ (S k))) Hh1) as (l' & -> & Hl').
        + apply HcA, nth_elem. lia.
        + apply Hnp. lia.
        + intros Hx. apply (Hcr (S (S k)) ltac:(lia)). eapply (crowd_sub M toGen n A A); [done| |exact Hx]. intros b _. symmetry. apply midway_S. lia.
        + cbn [obind]. eexists. split; [reflexivity|]. cbn [sPos sTy sCells]. split; [|split; [done|]].
          * intros b. rewrite midway_S by lia. unfold move. case_decide; [done|]. apply Hp1.
          * eapply holding_ext; [exact Hl'|]. intros b _. symmetry. apply midway_S. lia. }
    destruct (Loop (length c - 2)%nat ltac:(lia)) as (s1 & -> & Hp1 & Ht1 & Hh1). cbn [obind]. unfold update_cell. cbn [sPos sTy sCells]. rewrite move_eq.
    replace (S (length c - 2)) with (length c - 1)%nat in * by lia.
    assert (new head = q) as Enh. { unfold new. rewrite rep_at by (done || lia). by rewrite decide_False by lia. }
    assert (forall b, new b = move (midway c (length c - 1) new pos) head q b) as Efin.
    { intros b. rewrite <- Enh, <- midway_S by lia. replace (S (length c - 1)) with (length c) by lia. unfold midway. rewrite firstn_all. case_decide; [done|]. unfold new. by apply rep_out. }
    destruct (holding_update M cap HM toGen lens cut n A HL Hc HG (sCells s1) _ head q Hh1) as (l' & -> & Hl').
    - apply HcA, nth_elem. lia.
    - done.
    - intros Hx. apply (Hcr (length c) ltac:(lia)). eapply (crowd_sub M toGen n A A); [done| |exact Hx]. intros b _. rewrite <- Efin. unfold midway. rewrite firstn_all. case_decide; [done|]. unfold new. by apply rep_out.
    - cbn [obind]. eexists. split; [reflexivity|]. cbn [sPos sTy sCells]. split; [|split; [done|]].
      + intros b. rewrite Efin. unfold move. case_decide; [done|]. apply Hp1.
      + eapply holding_ext; [exact Hl'|]. intros b _. symmetry. apply Efin.
  Qed.
End Steps.
