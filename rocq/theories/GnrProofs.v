(** The steps of the generators. *)
From stdpp Require Import gmap.
From Verif Require Import Base Vec3 BoxSpec McCellModel DomainModel SpeciesModel SpeciesProofs CellListModel CellListSpec CellListProofs
  PairListModel PairListSpec EnergyModel EnergySpec EnergyProofs MoveModel MoveSpec MoveProofs CfbProofs GnrModel GnrSpec.
From Coq Require Import Reals Lra.
Local Open Scope R_scope.

Lemma max_ge ds : forall m, m <= fold_left (fun m d => if Rlt_dec m d then d else m) ds m /\
  forall d, d ∈ ds -> d <= fold_left (fun m d => if Rlt_dec m d then d else m) ds m.
Proof.
  induction ds as [|x ds IH]; intros m; cbn [fold_left].
  - split; [lra|]. intros d Hd. by apply elem_of_nil in Hd.
  - destruct (IH (if Rlt_dec m x then x else m)) as [H1 H2]. destruct (Rlt_dec m x); (split; [lra|]); intros d [->|Hd]%elem_of_cons; auto; lra.
Qed.
Lemma diam_in ds t : (0 <= t < Z.of_nat (length ds))%Z -> zget ds t = Ok (diam ds t) /\ diam ds t ∈ ds.
Proof.
  intros H. unfold zget, diam. rewrite decide_True by lia. destruct (lookup_lt_is_Some_2 ds (Z.to_nat t) ltac:(lia)) as [d Hd].
  unfold aget. rewrite Hd. rewrite (nth_lookup_Some _ _ _ _ Hd). split; [done|]. by eapply elem_of_list_lookup_2.
Qed.

Lemma subseteq_take_aux {T} (l : list T) k x : x ∈ take k l -> x ∈ l.
Proof. intros H. rewrite <- (take_drop k l). apply elem_of_app. by left. Qed.

Section Gnr.
  Context (M cap : nat) (HM : (2 <= M)%nat) (toGen : vec3 R -> vec3 R) (dist2 : vec3 R -> vec3 R -> R) (wrap : vec3 R -> vec3 R).
  Context (lens : vec3 R) (n : vec3 Z) (ds : list R) (near : vec3 R -> Prop).
  Local Notation cut := (max_diameter ds).
  Context (HL : positive3 lens) (Hc : 0 < cut) (HG : grid_of lens cut n) (Hds : forall d, d ∈ ds -> 0 <= d).
  Context (Hadj : forall r q, primary (toGen r) -> primary (toGen q) -> dist2 r q < cut * cut ->
             adjacent n (ccell n (toGen r)) (ccell n (toGen q))).
  Context (Hd : forall r q, dist2 r q = dist2 q r) (Hwrap : forall r, near r -> primary (toGen (wrap r))).
  (** Atoms, their types, and that no cell is overfilled by atoms that do not overlap. *)
  Context (all : list nat) (ty : nat -> Z) (Hall : forall a, a ∈ all -> (a < cap)%nat /\ (0 <= ty a < Z.of_nat (length ds))%Z).
  Context (Huc : forall S pos, S ⊆ all -> apart dist2 ds S pos ty -> ~ crowded toGen n (M - 1) S pos).
  Local Notation hold := (holding M cap toGen lens cut n).
  Definition good (A : list nat) (s : mcs) : Prop := A ⊆ all /\ hold A (sCells s) (sPos s) /\ apart dist2 ds A (sPos s) ty /\ sTy s = ty.

  Lemma diam_bounds a : a ∈ all -> 0 <= diam ds (ty a) <= cut.
  Proof.
    intros Ha. destruct (diam_in ds (ty a)) as [_ H]; [by apply Hall|]. split; [by apply Hds|]. by apply (proj2 (max_ge ds 0)).
  Qed.
  Lemma overlap_close a b x : a ∈ all -> b ∈ all -> x < Rsqr ((diam ds (ty a) + diam ds (ty b)) / 2) -> x < cut * cut.
  Proof. intros Ha Hb H. pose proof (diam_bounds a Ha). pose proof (diam_bounds b Hb). unfold Rsqr in H. nra. Qed.
  Lemma apart_weaken A A' pos pos' : A' ⊆ A -> (forall a, a ∈ A' -> pos' a = pos a) -> apart dist2 ds A pos ty -> apart dist2 ds A' pos' ty.
  Proof. intros HS HP H a b Ha Hb Hne. rewrite !HP by done. apply H; auto. Qed.
  Lemma good_weaken A s pos : good A s -> (forall a, a ∈ A -> pos a = sPos s a) -> good A (MC pos (sTy s) (sCells s)).
  Proof.
    intros (H1 & H2 & H3 & H4) HP. split; [done|]. cbn [sCells sPos sTy]. split; [|split; [|done]].
    - apply (holding_ext M cap toGen lens cut n A _ (sPos s)); [done|]. intros. symmetry. by apply HP.
    - by apply (apart_weaken A A (sPos s)).
  Qed.

  (** One atom is placed exactly if it overlaps no other. *)
  Lemma place_atom_ok A s a : good A s -> a ∈ all -> a ∉ A -> near (sPos s a) ->
    let pos := move (sPos s) a (wrap (sPos s a)) in
    exists s' ok, place_atom M toGen dist2 wrap ds s a = Ok (s', ok) /\ sPos s' = pos /\ sTy s' = ty /\ good (if ok then A ++ [a] else A) s' /\
      (ok = true <-> apart dist2 ds (A ++ [a]) pos ty).
  Proof.
    intros Hgood Ha HaA Hn pos. pose proof Hgood as (HA & Hh & Hap & Hty).
    assert (forall b, b ∈ A -> pos b = sPos s b) as Epos. { intros b Hb. unfold pos. rewrite move_ne; [done|]. intros ->. done. }
    assert (pos a = wrap (sPos s a)) as Epa by (unfold pos; by rewrite move_eq).
    pose proof (Hwrap _ Hn) as Hp.
    assert (hold A (sCells s) pos) as Hh'. { apply (holding_ext M cap toGen lens cut n A _ (sPos s)); [done|]. intros. by rewrite Epos. }
    destruct (holding_clinv M cap HM toGen lens cut n A HL Hc HG _ _ Hh') as (h & I & Hhh).
    destruct (neighbors_spec M cap HM toGen n (sCells s) h (pos a) I) as (nb & nIn & _ & Enb & _ & Hnb & _); [by rewrite Epa|].
    assert (forall j, j ∈ nb -> j ∈ A) as HnA.
    { intros j Hj. apply Hnb in Hj as (q & Hq & _). rewrite Hhh in Hq. destruct (decide (j ∈ A)); done. }
    unfold place_atom. cbn [sCells sPos sTy]. fold pos. rewrite Enb. cbn [obind]. rewrite Hty. rewrite (proj1 (diam_in ds (ty a) (proj2 (Hall a Ha)))). cbn [obind].
    set (clash := fun j => dist2 (pos j) (pos a) < Rsqr ((diam ds (ty a) + diam ds (ty j)) / 2)).
    assert (forall nb', (forall j, j ∈ nb' -> j ∈ A) -> exists ok, foldM (fun (ok : bool) j => if ok then
        let? dj := zget ds (ty j) in
        let d := 1/2 * (diam ds (ty a) + dj) in
        Ok (if Rlt_dec (dist2 (pos j) (pos a)) (d * d) then false else true) else Ok false) true nb' = Ok ok /\
        (ok = true <-> forall j, j ∈ nb' -> ~ clash j)) as Loop.
    { assert (forall nb', foldM (fun (ok : bool) j => if ok then
        let? dj := zget ds (ty j) in
        let d := 1/2 * (diam ds (ty a) + dj) in
        Ok (if Rlt_dec (dist2 (pos j) (pos a)) (d * d) then false else true) else Ok false) false nb' = Ok false) as LF.
      { induction nb' as [|j nb' IH]; [done|]. cbn [foldM obind]. exact IH. }
      induction nb' as [|j nb' IH]; intros Hs.
      - exists true. split; [done|]. split; [|done]. intros _ j Hj. by apply elem_of_nil in Hj.
      - cbn [foldM]. rewrite (proj1 (diam_in ds (ty j) (proj2 (Hall j (HA _ (Hs j (elem_of_list_here _ _))))))). cbn [obind]. cbv zeta.
        replace (1/2 * (diam ds (ty a) + diam ds (ty j)) * (1/2 * (diam ds (ty a) + diam ds (ty j)))) with (Rsqr ((diam ds (ty a) + diam ds (ty j)) / 2)) by (unfold Rsqr; field).
        destruct (Rlt_dec _ _) as [Hlt|Hge]; cbn [obind].
        + exists false. split; [exact (LF nb')|]. split; [done|]. intros H. exfalso. apply (H j); [left|exact Hlt].
        + destruct IH as (ok & E & Hok); [intros; apply Hs; by right|]. exists ok. split; [exact E|]. rewrite Hok. split.
          * intros H j' [->|Hj']%elem_of_cons; [exact Hge|by apply H].
          * intros H j' Hj'. apply H. by right. }
    destruct (Loop nb HnA) as (ok & E & Hok). cbv zeta in E |- *. rewrite E. cbn [obind].
    assert (ok = true <-> apart dist2 ds (A ++ [a]) pos ty) as Hiff.
    { rewrite Hok. split.
      - intros H. assert (forall b, b ∈ A -> Rsqr ((diam ds (ty a) + diam ds (ty b)) / 2) <= dist2 (pos b) (pos a)) as HX.
        { intros b Hb. destruct (Rle_lt_dec (Rsqr ((diam ds (ty a) + diam ds (ty b)) / 2)) (dist2 (pos b) (pos a))) as [|Hlt]; [done|]. exfalso.
          apply (H b); [|exact Hlt]. apply Hnb. exists (pos b). split; [by rewrite Hhh, decide_True|]. apply Hadj.
          - by rewrite Epa.
          - apply (holding_prim M cap HM toGen lens cut n A HL Hc HG _ _ b Hh' Hb).
          - rewrite Hd. by apply (overlap_close a b); [|apply HA|]. }
        intros x y [Hx|Hx%elem_of_list_singleton]%elem_of_app [Hy|Hy%elem_of_list_singleton]%elem_of_app Hne; try subst x; try subst y; [| | |done].
        + rewrite !Epos by done. by apply Hap.
        + rewrite (Rplus_comm (diam ds (ty x))). by apply HX.
        + rewrite Hd. by apply HX.
      - intros H j Hj Hlt. apply HnA in Hj. unfold clash in Hlt. assert (a <> j) as Hne by (intros ->; done).
        specialize (H a j ltac:(apply elem_of_app; right; by apply elem_of_list_singleton) ltac:(apply elem_of_app; by left) Hne). rewrite Hd in H. lra. }
    destruct ok.
    - assert (A ++ [a] ⊆ all) as HA'. { intros x [Hx|Hx%elem_of_list_singleton]%elem_of_app; [by apply HA|by subst x]. }
      destruct (holding_add M cap HM toGen lens cut n HL Hc HG (A ++ [a]) A (sCells s) pos a (pos a) Hh' HaA) as (l & El & Hl).
      + intros b. rewrite elem_of_app, elem_of_list_singleton. done.
      + by apply Hall.
      + by rewrite Epa.
      + assert (forall b, move pos a (pos a) b = pos b) as Em. { intros b. unfold move. case_decide; [by subst b|done]. }
        apply Huc; [done|]. apply (apart_weaken (A ++ [a]) (A ++ [a]) pos); [done|intros; by rewrite Em|]. by apply Hiff.
      + rewrite El. cbn [obind]. exists (MC pos ty l), true. split; [done|]. split; [done|]. split; [done|]. split; [|done]. split; [done|]. split; [|split; [by apply Hiff|done]].
        apply (holding_ext M cap toGen lens cut n _ _ (move pos a (pos a))); [done|]. intros b _. cbn [sPos]. unfold move. case_decide; [by subst b|done].
    - exists (MC pos ty (sCells s)), false. split; [done|]. split; [done|]. split; [done|]. split; [|done].
      rewrite <- Hty. by apply good_weaken.
  Qed.

  Lemma good_move A s a q : good A s -> a ∉ A -> good A (MC (move (sPos s) a q) (sTy s) (sCells s)).
  Proof. intros Hg Ha. apply good_weaken; [done|]. intros b Hb. rewrite move_ne; [done|]. by intros ->. Qed.
  Lemma place_at_ok A s a q : good A s -> a ∈ all -> a ∉ A -> near q ->
    exists s' ok, place_atom M toGen dist2 wrap ds (MC (move (sPos s) a q) (sTy s) (sCells s)) a = Ok (s', ok) /\ (forall b, sPos s' b = move (sPos s) a (wrap q) b) /\
      good (if ok then A ++ [a] else A) s' /\ (ok = true <-> apart dist2 ds (A ++ [a]) (move (sPos s) a (wrap q)) ty).
  Proof.
    intros Hg Ha HaA Hn. destruct (place_atom_ok A (MC (move (sPos s) a q) (sTy s) (sCells s)) a) as (s' & ok & E & Hp & Ht & Hg' & Hok); [by apply good_move|done|done|by cbn [sPos]; rewrite move_eq|].
    cbn [sPos] in *. rewrite move_eq in Hp, Hok.
    assert (forall b, move (move (sPos s) a q) a (wrap q) b = move (sPos s) a (wrap q) b) as Em. { intros b. unfold move. by case_decide. }
    exists s', ok. split; [exact E|]. split; [intros b; by rewrite Hp|]. split; [done|]. rewrite Hok. split; apply apart_weaken; done.
  Qed.
  Lemma place_first_ok A a qs : forall s, good A s -> a ∈ all -> a ∉ A -> (forall q, q ∈ qs -> near q) ->
    exists r, place_first M toGen dist2 wrap ds qs s a = Ok r /\
      match r with
      | None => forall q, q ∈ qs -> ~ apart dist2 ds (A ++ [a]) (move (sPos s) a (wrap q)) ty
      | Some s' => good (A ++ [a]) s' /\ exists q, q ∈ qs /\ forall b, sPos s' b = move (sPos s) a (wrap q) b
      end.
  Proof.
    induction qs as [|q qs IH]; intros s Hg Ha HaA Hn; cbn [place_first].
    - exists None. split; [done|]. intros q Hq. by apply elem_of_nil in Hq.
    - destruct (place_at_ok A s a q Hg Ha HaA) as (s' & ok & E & Hp & Hg' & Hok); [apply Hn; left|]. rewrite E. cbn [obind]. destruct ok.
      + exists (Some s'). split; [done|]. split; [done|]. exists q. split; [left|done].
      + destruct (IH s' Hg' Ha HaA) as (r & Er & Hr); [intros; apply Hn; by right|]. exists r. split; [exact Er|].
        assert (forall q' b, move (sPos s') a q' b = move (sPos s) a q' b) as Em. { intros q' b. unfold move. case_decide; [done|]. rewrite Hp. by rewrite move_ne. }
        destruct r as [s''|].
        * destruct Hr as (Hg2 & q' & Hq' & Hp2). split; [done|]. exists q'. split; [by right|]. intros b. by rewrite Hp2.
        * intros q' [->|Hq']%elem_of_cons Hap; [by apply Hok in Hap|]. apply (Hr q' Hq'). revert Hap. by apply apart_weaken.
  Qed.
  Lemma place_next_ok A p a vs : forall s, good A s -> a ∈ all -> a ∉ A -> p ∈ A -> (forall u L r, (u, L) ∈ vs -> primary (toGen r) -> near (vadd r (vscale (L 0%Z) u))) ->
    exists s' ok, place_next M toGen dist2 wrap ds vs s p a = Ok (s', ok) /\ good (if ok then A ++ [a] else A) s' /\ (forall b, b <> a -> sPos s' b = sPos s b) /\
      (ok = true -> exists u L, (u, L) ∈ vs /\ sPos s' a = wrap (vadd (sPos s p) (vscale (L 0%Z) u))).
  Proof.
    induction vs as [|[u L] vs IH]; intros s Hg Ha HaA Hp Hn; cbn [place_next].
    - exists s, false. split; [done|]. split; [done|]. split; [done|]. done.
    - destruct (place_at_ok A s a (vadd (sPos s p) (vscale (L 0%Z) u)) Hg Ha HaA) as (s' & ok & E & Hp' & Hg' & Hok).
      { apply (Hn u L); [left|]. apply (holding_prim M cap HM toGen lens cut n A HL Hc HG (sCells s) (sPos s) p); [apply Hg|done]. }
      rewrite E. cbn [obind]. destruct ok.
      + exists s', true. split; [done|]. split; [done|]. split; [intros b Hb; by rewrite Hp', move_ne|]. intros _. exists u, L. split; [left|]. by rewrite Hp', move_eq.
      + destruct (IH s' Hg' Ha HaA Hp) as (s2 & ok & E2 & Hg2 & Hp2 & Hv); [intros u' L' r Hin; apply Hn; by right|]. exists s2, ok. split; [exact E2|]. split; [done|].
        split; [intros b Hb; rewrite Hp2 by done; by rewrite Hp', move_ne|]. intros Hk. destruct (Hv Hk) as (u' & L' & Hin & Ev). exists u', L'. split; [by right|].
        rewrite Ev, Hp', move_ne; [done|]. by intros ->.
  Qed.
  Lemma delete_all A Q dn : forall l, NoDup (A ++ dn) -> hold (A ++ dn) l Q -> exists l', foldM cl_delete l dn = Ok l' /\ hold A l' Q.
  Proof.
    induction dn as [|a dn IH]; intros l Hnd Hh; cbn [foldM].
    - exists l. rewrite app_nil_r in Hh. done.
    - assert (NoDup (a :: A ++ dn)) as Hnd' by (by rewrite Permutation_middle). apply NoDup_cons in Hnd' as [Ha Hnd'].
      destruct (holding_delete M cap HM toGen lens cut n HL Hc HG (A ++ a :: dn) (A ++ dn) l Q a Hh) as (l' & -> & Hl').
      + apply elem_of_app. right. left.
      + intros b. rewrite !elem_of_app, elem_of_cons. split; [|tauto]. intros Hb. split; [tauto|]. intros ->. apply Ha. by apply elem_of_app.
      + cbn [obind]. by apply IH.
  Qed.
  Lemma grow_ok A next : (forall v r, steps_of next v -> primary (toGen r) -> near (vadd r v)) ->
    forall rest dn p i s, good (A ++ dn) s -> p ∈ dn -> rest ⊆ all -> NoDup (A ++ dn ++ rest) ->
    exists s' ok, grow M toGen dist2 wrap ds next dn p rest i s = Ok (s', ok) /\ (forall b, b ∉ rest -> sPos s' b = sPos s b) /\
      if ok then good (A ++ dn ++ rest) s' /\ bonded_by wrap (steps_of next) (sPos s') (p :: rest) else good A s'.
  Proof.
    intros Hn. induction rest as [|a rest IH]; intros dn p i s Hg Hp Hsub Hnd; cbn [grow].
    - exists s, true. split; [done|]. split; [done|]. rewrite app_nil_r. split; [done|]. intros j x y Hx Hy. cbn in Hy. by destruct j.
    - rewrite app_assoc in Hnd. pose proof Hnd as (Hnd1 & Hdis & Hnd2)%NoDup_app. apply NoDup_cons in Hnd2 as [Har Hnd2].
      assert (a ∉ A ++ dn) as HaA. { intros H. apply (Hdis a H). left. }
      destruct (place_next_ok (A ++ dn) p a (take 100 (next i)) s Hg) as (s1 & ok & E1 & Hg1 & Hp1 & Hv1).
      + apply Hsub. left.
      + done.
      + apply elem_of_app. by right.
      + intros u L r Hin. apply Hn. exists i, u, L. split; [|done]. by eapply subseteq_take_aux.
      + rewrite E1. cbn [obind]. destruct ok.
        * destruct (IH (dn ++ [a]) a (S i) s1) as (s2 & ok & E2 & Hp2 & Hg2).
          -- by rewrite app_assoc.
          -- apply elem_of_app. right. left.
          -- intros x Hx. apply Hsub. by right.
          -- rewrite <- !app_assoc. cbn [app]. by rewrite app_assoc.
          -- exists s2, ok. split; [exact E2|]. split.
             ++ intros b Hb. rewrite Hp2 by (intros H; apply Hb; by right). apply Hp1. intros ->. apply Hb. left.
             ++ destruct ok; [|done]. rewrite <- app_assoc in Hg2. cbn [app] in Hg2. destruct Hg2 as [Hg2 Hb2]. split; [done|].
                intros [|j] x y Hx Hy.
                ** cbn in Hx, Hy. injection Hx as <-. injection Hy as <-. destruct (Hv1 eq_refl) as (u & L & Hin & Ev). exists (vscale (L 0%Z) u).
                   split; [exists i, u, L; split; [by eapply subseteq_take_aux|done]|]. 
                   assert (p ∉ rest) as Hpr. { intros H. apply (Hdis p); [apply elem_of_app; by right|by right]. }
                   rewrite (Hp2 a Har), (Hp2 p Hpr), Ev, (Hp1 p); [done|]. intros ->. apply HaA, elem_of_app. by right.
                ** apply (Hb2 j x y Hx Hy).
        * destruct Hg1 as (Hs1 & Hh1 & Hap1 & Ht1). destruct (delete_all A (sPos s1) dn (sCells s1) Hnd1 Hh1) as (l' & -> & Hl'). cbn [obind].
          exists (MC (sPos s1) (sTy s1) l'), false. split; [done|]. split.
          -- intros b Hb. apply Hp1. intros ->. apply Hb. left.
          -- split; [intros x Hx; apply Hs1, elem_of_app; by left|]. split; [done|]. split; [|done]. apply (apart_weaken (A ++ dn) A (sPos s1)); [|done|done].
             intros x Hx. apply elem_of_app. by left.
  Qed.
  Local Notation draws_near := (draws_near toGen near).
  Lemma bonded_weaken (V V' : vec3 R -> Prop) pos pos' mol : (forall v, V v -> V' v) -> (forall a, a ∈ mol -> pos' a = pos a) -> bonded_by wrap V pos mol -> bonded_by wrap V' pos' mol.
  Proof.
    intros HV HP H i a b Ha Hb. destruct (H i a b Ha Hb) as (v & Hv & E). exists v. split; [auto|]. rewrite !HP by (by eapply elem_of_list_lookup_2). done.
  Qed.
  Lemma place_mol_ok A x s mol : good A s -> draws_near x -> mol <> [] -> mol ⊆ all -> NoDup (A ++ mol) ->
    exists r, place_mol M toGen dist2 wrap ds x s mol = Ok r /\
      match r with
      | None => exists a, mol !! 0%nat = Some a /\ forall q, q ∈ x.1 -> ~ apart dist2 ds (A ++ [a]) (move (sPos s) a (wrap q)) ty
      | Some (s', ok) => (forall b, b ∉ mol -> sPos s' b = sPos s b) /\
          if ok then good (A ++ mol) s' /\ bonded_by wrap (steps_of x.2) (sPos s') mol /\ starts_at wrap (fun q => q ∈ x.1) (sPos s') mol else good A s'
      end.
  Proof.
    intros Hg [Hn1 Hn2] Hne Hsub Hnd. destruct mol as [|a rest]; [done|]. cbn [place_mol].
    assert (a ∉ A) as Ha. { apply NoDup_app in Hnd as (_ & Hdis & _). intros H. apply (Hdis a H). left. }
    destruct (place_first_ok A a x.1 s Hg) as (r & -> & Hr); [apply Hsub; left|done|done|]. cbn [obind]. destruct r as [s1|].
    - destruct Hr as (Hg1 & q & Hq & Hp1).
      destruct (grow_ok A x.2 Hn2 rest [a] a 1 s1) as (s2 & ok & -> & Hp2 & Hg2); [done|left|intros y Hy; apply Hsub; by right|done|]. cbn [obind].
      exists (Some (s2, ok)). split; [done|]. split; [|destruct ok; [|done]; destruct Hg2 as [Hg2 Hb2]; split; [done|]; split; [done|]].
      2:{ intros a' [= <-]. exists q. split; [done|]. rewrite Hp2, Hp1, move_eq; [done|]. apply NoDup_app in Hnd as (_ & _ & Hnd). by apply NoDup_cons in Hnd as [? _]. }
      intros b Hb. rewrite Hp2 by (intros H; apply Hb; by right). rewrite Hp1, move_ne; [done|]. intros ->. apply Hb. left.
    - exists None. split; [done|]. exists a. split; [done|]. exact Hr.
  Qed.
  Lemma tries_ok A mol xs : forall s, good A s -> (forall x, x ∈ xs -> draws_near x) -> mol <> [] -> mol ⊆ all -> NoDup (A ++ mol) ->
    exists r, place_tries M toGen dist2 wrap ds xs s mol = Ok r /\
      match r with
      | None => True
      | Some (s', ok) => (forall b, b ∉ mol -> sPos s' b = sPos s b) /\
          if ok then good (A ++ mol) s' /\ bonded_by wrap (fun v => exists x, x ∈ xs /\ steps_of x.2 v) (sPos s') mol /\
            starts_at wrap (fun q => exists x, x ∈ xs /\ q ∈ x.1) (sPos s') mol else good A s'
      end.
  Proof.
    induction xs as [|x xs IH]; intros s Hg Hn Hne Hsub Hnd; cbn [place_tries].
    - exists (Some (s, false)). done.
    - destruct (place_mol_ok A x s mol Hg) as (r & -> & Hr); [apply Hn; left|done..|]. cbn [obind]. destruct r as [[s1 ok]|]; [|by exists None]. destruct Hr as [Hp1 Hr].
      destruct ok.
      + exists (Some (s1, true)). split; [done|]. split; [done|]. destruct Hr as (Hg1 & Hb1 & Hs1). split; [done|]. split.
        * revert Hb1. apply bonded_weaken; [|done]. intros v Hv. exists x. split; [left|done].
        * intros a Ha. destruct (Hs1 a Ha) as (q & Hq & Eq). exists q. split; [|done]. exists x. split; [left|done].
      + destruct (IH s1 Hr) as (r & Er & H); [intros y Hy; apply Hn; by right|done..|]. exists r. split; [exact Er|]. destruct r as [[s2 ok]|]; [|done].
        destruct H as [Hp2 H]. split; [intros b Hb; rewrite Hp2 by done; by apply Hp1|]. destruct ok; [|done]. destruct H as (Hg2 & Hb2 & Hs2). split; [done|]. split.
        * revert Hb2. apply bonded_weaken; [|done]. intros v (y & Hy & Hv). exists y. split; [by right|done].
        * intros a Ha. destruct (Hs2 a Ha) as (q & (y & Hy & Hq) & Eq). exists q. split; [|done]. exists y. split; [by right|done].
  Qed.
  Lemma generate_ok A0 tries : (forall i x, x ∈ tries i -> draws_near x) -> forall mols i s given,
    good (A0 ++ concat given) s -> (forall m, m ∈ mols -> m <> [] /\ m ⊆ all) -> NoDup ((A0 ++ concat given) ++ concat mols) ->
    exists r, generate M toGen dist2 wrap ds mols tries i s given = Ok r /\
      match r with
      | None => True
      | Some (s', given', ok) => exists k, given' = given ++ take k mols /\ (k <= length mols)%nat /\ (ok = true <-> k = length mols) /\
          good (A0 ++ concat given') s' /\ (forall b, b ∉ concat (take k mols) -> b ∉ concat (drop k mols) -> sPos s' b = sPos s b) /\
          (forall m, m ∈ take k mols -> bonded_by wrap (drawn tries) (sPos s') m /\ starts_at wrap (fun q => exists i x, x ∈ tries i /\ q ∈ x.1) (sPos s') m)
      end.
  Proof.
    intros Hn. induction mols as [|mol mols IH]; intros i s given Hg Hm Hnd; cbn [generate].
    - exists (Some (s, given, true)). split; [done|]. exists 0%nat. cbn [take drop length]. rewrite app_nil_r. split_and!; [done|done|done|done|done|]. intros m H. by apply elem_of_nil in H.
    - cbn [concat] in Hnd. destruct (Hm mol) as [Hne Hsub]; [left|].
      destruct (tries_ok (A0 ++ concat given) mol (take 200 (tries i)) s Hg) as (r & -> & Hr).
      + intros x Hx. apply (Hn i). by eapply subseteq_take_aux.
      + done.
      + done.
      + rewrite app_assoc in Hnd. by apply NoDup_app in Hnd as (? & _ & _).
      + cbn [obind]. destruct r as [[s1 ok]|]; [|by exists None]. destruct Hr as [Hp1 Hr]. destruct ok.
        * destruct Hr as (Hg1 & Hb1 & Hs1).
          destruct (IH (S i) s1 (given ++ [mol])) as (r & Er & H).
          -- rewrite concat_app. cbn [concat]. by rewrite app_nil_r, app_assoc.
          -- intros m Hin. apply Hm. by right.
          -- rewrite concat_app. cbn [concat]. rewrite app_nil_r, !app_assoc. by rewrite !app_assoc in Hnd.
          -- exists r. split; [exact Er|]. destruct r as [[[s2 given'] ok]|]; [|done]. destruct H as (k & -> & Hk & Hok & Hg2 & Hp2 & Hb2).
             exists (S k). cbn [take drop length concat]. rewrite <- app_assoc in Hg2 |- *. cbn [app] in Hg2 |- *. split_and!; [done|lia|rewrite Hok; lia|done| |].
             ++ intros b Hb Hb'. rewrite elem_of_app in Hb. rewrite Hp2 by tauto. apply Hp1. tauto.
             ++ intros m [->|Hin]%elem_of_cons; [|by apply Hb2].
                assert (forall a, a ∈ mol -> sPos s2 a = sPos s1 a) as Hkeep.
                { intros a Ha. rewrite app_assoc in Hnd. apply NoDup_app in Hnd as (_ & Hdis & _). apply Hp2; intros H; apply (Hdis a); try (apply elem_of_app; by right).
                  - rewrite <- (take_drop k mols), concat_app. apply elem_of_app. by left.
                  - rewrite <- (take_drop k mols), concat_app. apply elem_of_app. by right. }
                split.
                ** revert Hb1. apply bonded_weaken; [|done]. intros v (x & Hx & Hv). exists i, x. split; [|done]. by eapply subseteq_take_aux.
                ** intros a Ha. destruct (Hs1 a Ha) as (q & (x & Hx & Hq) & Eq). exists q. split; [|rewrite Hkeep; [done|by eapply elem_of_list_lookup_2]].
                   exists i, x. split; [|done]. by eapply subseteq_take_aux.
        * exists (Some (s1, given, false)). split; [done|]. exists 0%nat. cbn [take drop length concat]. rewrite app_nil_r. split_and!; [done|lia|split; [done|lia]|done| |].
          -- intros b _ Hb. apply Hp1. intros H. apply Hb, elem_of_app. by left.
          -- intros m H. by apply elem_of_nil in H.
  Qed.
End Gnr.
