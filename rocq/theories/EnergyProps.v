(** Property C60: the energy of a system, by the loops of McSystem over the cell list and of MdSystem over the pair list, is
    the sum over all unmasked pairs, all groups and all atoms. *)
From stdpp Require Import gmap.
From Verif Require Import Base Vec3 BoxSpec OrthoModel OrthoSpec OrthoProofs OrthoProps MonoModel MonoSpec MonoProofs MonoProps.
From Verif Require Import McCellModel DomainModel DomainProofs SpeciesModel SpeciesProofs.
From Verif Require Import CellListModel CellListSpec CellListProofs CellListProps PairListModel PairListSpec PairListProofs PairListProps.
From Verif Require Import EnergyModel EnergySpec EnergyProofs MoveModel MoveSpec MoveProofs.
From Coq Require Import Reals Lra.
Local Open Scope R_scope.

(** ** Facts about both boundaries *)
Lemma ortho_sym b r1 r2 : a_box b -> distanceSq b r1 r2 = distanceSq b r2 r1.
Proof.
  intros Hb. destruct (owf_a_box b Hb) as (l & lat & W). unfold distanceSq. rewrite !(sep_eq b l lat _ _ _ W) by lia.
  assert (forall i, (i < 3)%nat -> (sep_axis (vget l i / 2) (vget l i) (vget r1 i) (vget r2 i)).1 =
            - (sep_axis (vget l i / 2) (vget l i) (vget r2 i) (vget r1 i)).1) as E.
  { intros i Hi. destruct (sep_axis_sym (vget l i) (vget r1 i) (vget r2 i) (pos3_get l i (w_pos _ _ _ W) )) as [H _]. rewrite H. ring. }
  rewrite !E by lia. ring.
Qed.
Lemma mono_sym b r1 r2 : a_mbox b -> mono_distanceSq b r1 r2 = mono_distanceSq b r2 r1.
Proof.
  intros Hb. destruct (mwf_a_mbox b Hb) as (l & d & W). unfold mono_distanceSq. rewrite !(mono_sep_axes b l d _ _ W).
  cbv zeta. destruct (m_pos _ _ _ W) as (X & Y & Z).
  destruct (sep_axis_sym (vx l) (vx r1) (vx r2) X) as [Ex _]. destruct (sep_axis_sym (vy l) (vy r1) (vy r2) Y) as [Ey Ey'].
  destruct (sep_axis_sym (vz l) (vz r1 - d / vy l * vy r1) (vz r2 - d / vy l * vy r2) Z) as [_ Ez].
  cbn [vx vy vz]. rewrite Ex, Ey, Ey', Ez. rewrite !opp_IZR. ring.
Qed.
Lemma sep_self L x : 0 < L -> sep_axis (L / 2) L x x = (0, 0%Z).
Proof. intros HL. unfold sep_axis. rewrite Rminus_diag_eq, Rabs_R0 by done. destruct (Rgt_dec _ _); [lra|done]. Qed.
Record bd_facts (B : boundary) : Prop := {
  bf_pos : positive3 (bLens B);
  bf_span : spans (bGen B) (bBrav B) (bLens B);
  bf_image : forall r q, exists m, bDist B r q = normSq (vadd (vsub r q) (lattice_vector (bBrav B) m));
  bf_sym : forall r q, bDist B r q = bDist B q r;
  bf_self : forall r, bDist B r r = 0;
  bf_wrap : forall r, near_cell_of (bBrav B) r -> primary (bGen B (bWrap B r));
}.
Lemma near_ortho b r : a_box b -> near_cell_of (oBrav b) r -> forall i, (i < 3)%nat -> - vget (oLen b) i <= vget r i < 2 * vget (oLen b) i.
Proof.
  intros Hb (g & -> & Hg) i Hi. destruct (owf_a_box b Hb) as (l & lat & W). rewrite (w_brav _ _ _ W), (w_len _ _ _ W).
  specialize (Hg i Hi). pose proof (pos3_get l i (w_pos _ _ _ W)) as HL.
  assert (vget (combo (diag (vget l)) g) i = vget g i * vget l i) as ->.
  { destruct g as [x y z], l as [a b' c]. unfold combo, diag, vadd, vscale. destruct i as [|[|[|]]]; try lia; cbn; ring. }
  nra.
Qed.
Lemma boundary_facts B : a_boundary B -> bd_facts B.
Proof.
  intros [(b & Hb & ->)|(b & Hb & ->)]; split; cbn [ortho_bd mono_bd bGen bDist bWrap bLens bBrav].
  - destruct (owf_a_box b Hb) as (l & lat & W). rewrite (w_len _ _ _ W). apply W.
  - by apply ortho_spans.
  - intros r q. by apply ortho_image.
  - intros r q. by apply ortho_sym.
  - intros r. destruct (owf_a_box b Hb) as (l & lat & W). unfold distanceSq. rewrite !(sep_eq b l lat _ _ _ W) by lia.
    rewrite !sep_self by (apply pos3_get, W). cbn. ring.
  - intros r Hr. destruct (OrthoModel.shift b r (V3 0 0 0)%Z) as [r' s'] eqn:Es.
    destruct (ortho_shift_wraps b _ _ _ _ Hb (near_ortho b r Hb Hr) Es) as (Hin & _ & _ & -> & _).
    destruct (ortho_transforms_inverse b Hb) as (_ & _ & _ & _ & Hbox). exact (proj1 (Hbox _) Hin).
  - destruct (mwf_a_mbox b Hb) as (len & d & W). rewrite (m_lens _ _ _ W). destruct (m_pos _ _ _ W) as (X & Y & Z).
    split; [done|]. split; [done|]. cbn. apply Rdiv_lt_0_compat; [done|]. apply sqrt_lt_R0. nra.
  - by apply mono_spans.
  - intros r q. by apply mono_image.
  - intros r q. by apply mono_sym.
  - intros r. destruct (mwf_a_mbox b Hb) as (l & d & W). unfold mono_distanceSq. rewrite (mono_sep_axes b l d _ _ W). cbv zeta.
    destruct (m_pos _ _ _ W) as (X & Y & Z). rewrite !sep_self by done. cbn [fst snd vx vy vz]. ring.
  - intros r Hr. destruct (mono_shift b r (V3 0 0 0)%Z) as [r' s'] eqn:Es.
    destruct (mono_shift_wraps b _ _ _ _ Hb Hr Es) as (Hin & _ & _ & -> & _).
    destruct (mono_transforms_inverse b Hb) as (_ & _ & _ & _ & _ & Hbox). exact (proj1 (Hbox _) Hin).
Qed.
Lemma boundary_adj B cut n : a_boundary B -> 0 < cut -> grid_of (bLens B) cut n ->
  forall r q, primary (bGen B r) -> primary (bGen B q) -> bDist B r q < cut * cut ->
  adjacent n (ccell n (bGen B r)) (ccell n (bGen B q)).
Proof. intros HB Hc HG. destruct (boundary_facts B HB) as [H1 H2 H3 _ _ _]. by apply (close_adjacent _ _ (bBrav B) (bLens B) cut n). Qed.

(** ** Monte Carlo *)

(** C60 for McSystem.  Take either boundary, any masks, pair interaction, bonded potentials (bonds, angles, dihedrals,
    links) and external potential, and any configuration in which each atom is less than one cell outside the cell and no
    cell of the grid holds more than MaxAtomCell - 1 atoms.  buildCellList succeeds, shifts every atom into the cell and
    leaves the types alone; afterwards potentialEnergy returns the sum of the energies of all unmasked pairs, whatever
    their distance, of all groups, and of all atoms in the external potential. *)
Theorem mc_energy_correct :
  forall M cap B masked u cut kinds ext n atoms s,
  (2 <= M)%nat -> a_boundary B -> interaction_ok cut u ->
  grid_of (bLens B) cut n -> NoDup atoms -> length (clTags (sCells s)) = cap ->
  (forall a, a ∈ atoms -> (a < cap)%nat /\ near_cell_of (bBrav B) (sPos s a)) ->
  ~ crowded (bGen B) n (M - 1) atoms (fun a => bWrap B (sPos s a)) ->
  exists s', mc_build M (bGen B) (bWrap B) (bLens B) cut atoms s = Ok s' /\
    synced M cap (bGen B) (bLens B) cut n atoms s' /\
    (forall a, sPos s' a = if decide (a ∈ atoms) then bWrap B (sPos s a) else sPos s a) /\ (forall a, sTy s' a = sTy s a) /\
    sys_total M (bDist B) masked u kinds ext atoms s' = Ok (total_energy (bDist B) masked u kinds ext atoms (sPos s') (sTy s')).
Proof.
  intros M cap B masked u cut kinds ext n atoms s HM HB (Hc & Hcut & Hu) HG Hnd Hcap Hat Hcr.
  pose proof (boundary_facts B HB) as F. pose proof (boundary_adj B cut n HB Hc HG) as Hadj.
  destruct (build_gen M cap HM (bGen B) (bWrap B) (bLens B) n cut (fun a => a) atoms Hnd (bf_pos B F) Hc HG s Hcap) as (s' & E & Hs & P1 & P2 & P3).
  { intros a Ha. destruct (Hat a Ha) as [H1 H2]. split; [by apply F|done]. }
  { done. }
  exists s'. split; [done|]. split; [done|]. split; [intros a; case_decide; auto|]. split; [done|].
  apply (sys_total_eq M cap HM (bGen B) (bDist B) (bLens B) n masked u cut kinds ext atoms Hnd (bf_pos B F) Hc HG Hadj Hcut s' Hs).
Qed.

(** ** Molecular dynamics *)
Lemma refresh_state M cap A Pc toGen dist2 wrap lens masked skin cutoff atoms pos p pos' p' : pl_state M cap A Pc skin cutoff p ->
  pl_refresh M toGen dist2 wrap lens masked atoms pos p = Ok (pos', p') -> pl_state M cap A Pc skin cutoff p'.
Proof.
  intros Hst. unfold pl_refresh. intros ([] & _ & H)%obind_Ok. apply obind_Ok in H as (p1 & H1 & H).
  apply obind_Ok in H as ([q1 p2] & H2 & H). apply obind_Ok in H as (p3 & H3 & H). injection H as _ <-.
  eapply PS_build; [|exact H3]. apply (PS_setup _ _ _ _ _ _ _ _ _ Hst) in H1. revert H1 H2. clear.
  revert p1 pos. induction atoms as [|x xs IH]; intros p1 pos H1; cbn [foldM].
  - by intros [= <- <-].
  - intros ([q p'] & Ha & H2)%obind_Ok. eapply IH; [|exact H2]. unfold pl_enter in Ha. apply obind_Ok in Ha as (p'' & Ha & [= <- <-]).
    by eapply PS_add.
Qed.

Lemma half_prod A f : half_pairs A f = sum_over (list_prod A A) (fun x => if decide (x.1 < x.2)%nat then f x.1 x.2 else 0).
Proof.
  unfold half_pairs. generalize A at 2 4. intros A'. induction A as [|a A IH]; [done|]. cbn [list_prod]. rewrite sum_cons, sum_app, IH. f_equal.
  by rewrite sum_map.
Qed.
Lemma prod_nodup (A A' : list nat) : NoDup A -> NoDup A' -> NoDup (list_prod A A').
Proof.
  intros HA HA'. induction HA as [|a A Ha HA IH]; cbn [list_prod]; [constructor|]. apply NoDup_app. split; [|split; [|done]].
  - apply NoDup_fmap_2; [|done]. by intros x y [=].
  - intros [x y] Hx Hy. apply elem_of_list_fmap in Hx as (z & [= -> ->] & _). apply Ha. apply elem_of_list_In, in_prod_iff in Hy as [Hy _].
    by apply elem_of_list_In.
Qed.
Lemma prod_in (A A' : list nat) x : x ∈ list_prod A A' <-> x.1 ∈ A /\ x.2 ∈ A'.
Proof. destruct x as [i j]. cbn [fst snd]. by rewrite !elem_of_list_In, in_prod_iff. Qed.

(** The sum over a list that has every pair closer than the cutoff. *)
Lemma list_pairs (A : list nat) masked (l : list (nat * nat)) (f : nat -> nat -> R) : NoDup A -> NoDup l ->
  (forall x, x ∈ l -> x.1 ∈ A /\ x.2 ∈ A /\ (x.1 < x.2)%nat /\ masked x.1 x.2 = false) ->
  (forall i j, i ∈ A -> j ∈ A -> (i < j)%nat -> masked i j = false -> (i, j) ∉ l -> f i j = 0) ->
  sum_over l (fun x => f x.1 x.2) = half_pairs A (fun i j => if masked i j then 0 else f i j).
Proof.
  intros HA Hl Hin H0. rewrite half_prod.
  rewrite (sum_ext _ (fun x => if decide (x.1 < x.2)%nat then if masked x.1 x.2 then 0 else f x.1 x.2 else 0)).
  2:{ intros x Hx. destruct (Hin x Hx) as (_ & _ & Hlt & ->). by rewrite decide_True. }
  apply sum_sub; [done| |by apply prod_nodup|].
  - intros x Hx. apply prod_in. destruct (Hin x Hx) as (? & ? & _). done.
  - intros [i j] Hx Hn. apply prod_in in Hx as [Hi Hj]. cbn [fst snd] in *. destruct (decide (i < j)%nat); [|done].
    destruct (masked i j) eqn:E; [done|]. by apply H0.
Qed.

Lemma md_energy_general dist2 brav masked u cut skin atoms old new ty p l fuel :
  NoDup atoms -> (forall r t1 t2, cut * cut <= r -> u r t1 t2 = 0) ->
  (forall r q, exists m, dist2 r q = normSq (vadd (vsub r q) (lattice_vector brav m))) ->
  current_is_safe brav dist2 masked cut skin atoms old p -> lists_close dist2 masked (cut + skin) atoms old l -> visits p l ->
  (forall k, (length (stored p) < k)%nat -> it_loop k (pl_begin p) = Ok (Some (stored p))) ->
  pl_isCurrent dist2 new p = Ok true -> (length (stored p) < fuel)%nat ->
  md_pair_energy dist2 u fuel p new ty = Ok (Some (pair_energy dist2 masked u atoms new ty)).
Proof.
  intros HA Hcut Him Hsafe [Hnd Hcl] Hv Hst Hcur Hf.
  assert (stored p = map (fun x => (Some x.1, Some x.2)) l) as Est.
  { set (k := S (length (stored p) + length l)). pose proof (Hst k ltac:(lia)) as E1. rewrite (Hv k ltac:(lia)) in E1. by injection E1. }
  unfold md_pair_energy. rewrite (Hst fuel Hf). cbn [obind]. rewrite Est.
  assert (forall e, foldM (fun e x => match x with | (Some i, Some j) => Ok (e + u (dist2 (new i) (new j)) (ty i) (ty j)) | _ => UB end)
      e (map (fun x : nat * nat => (Some x.1, Some x.2)) l) = Ok (e + sum_over l (fun x => u (dist2 (new x.1) (new x.2)) (ty x.1) (ty x.2)))) as E.
  { clear. induction l as [|[i j] l IH]; intros e; cbn [map foldM fst snd]; [by rewrite sum_nil, Rplus_0_r|]. cbn [obind]. rewrite IH, sum_cons.
    cbn [fst snd]. f_equal. ring. }
  rewrite E. cbn [obind]. rewrite Rplus_0_l. f_equal. f_equal.
  rewrite (list_pairs atoms masked l (fun i j => u (dist2 (new i) (new j)) (ty i) (ty j))); [done|done|done| |].
  - intros x Hx. apply Hcl in Hx as (? & ? & ? & ? & _). done.
  - intros i j Hi Hj Hlt Hm Hn. apply Hcut. destruct (Rle_lt_dec (cut * cut) (dist2 (new i) (new j))) as [|Hd]; [done|]. exfalso.
    destruct (Hsafe new) as (c & Hc & _ & Hin). rewrite Hcur in Hc. injection Hc as <-.
    destruct (Him (new i) (new j)) as [m Em]. rewrite Em in Hd. specialize (Hin eq_refl i j m Hi Hj Hlt Hm Hd). apply Hn.
    rewrite Est in Hin. apply elem_of_list_fmap in Hin as ([i' j'] & [= -> ->] & Hin). done.
Qed.

(** What MdPairPotentialImpl::computeEnergy does in a box with given functions: the list was built for positions [pos];
    now the atoms are at [new].  Either the list is used as it is, or it is built again, which may throw; if nothing throws
    the result is the energy of all unmasked pairs at the positions then held, which are [new] or [new] shifted into the
    cell. *)
Definition md_energy_ok (M cap A Pc : nat) (B : boundary) masked u (cut skin : R) n atoms (ty : nat -> Z) p' : Prop :=
  forall new, (forall a, a ∈ atoms -> (a < cap)%nat /\ near_cell_of (bBrav B) (new a)) ->
  (exists pos2 p2, md_update M (bGen B) (bDist B) (bWrap B) (bLens B) masked atoms new p' = Ok (pos2, p2) /\
     ((forall a, pos2 a = new a) \/ (forall a, pos2 a = if decide (a ∈ atoms) then bWrap B (new a) else new a)) /\
     forall fuel, (length (stored p2) < fuel)%nat ->
       md_pair_energy (bDist B) u fuel p2 pos2 ty = Ok (Some (pair_energy (bDist B) masked u atoms pos2 ty))) \/
  (md_update M (bGen B) (bDist B) (bWrap B) (bLens B) masked atoms new p' = Throw /\
     (crowded (bGen B) n M atoms (fun a => bWrap B (new a)) \/ (A < length atoms)%nat \/
      exists l, lists_close (bDist B) masked (cut + skin) atoms (fun a => bWrap B (new a)) l /\ (Pc < length l)%nat)).

Lemma md_energy_boundary M cap A Pc B masked u cut skin n atoms pos ty p pos' p' :
  a_boundary B -> interaction_ok cut u -> pl_state M cap A Pc skin cut p -> grid_of (bLens B) (cut + skin) n -> NoDup atoms ->
  (forall a, a ∈ atoms -> (a < cap)%nat /\ near_cell_of (bBrav B) (pos a)) ->
  (forall r q m, primary (bGen B r) -> primary (bGen B q) ->
     normSq (vadd (vsub r q) (lattice_vector (bBrav B) m)) < (cut + skin) * (cut + skin) ->
     bDist B r q < (cut + skin) * (cut + skin)) ->
  pl_refresh M (bGen B) (bDist B) (bWrap B) (bLens B) masked atoms pos p = Ok (pos', p') ->
  md_energy_ok M cap A Pc B masked u cut skin n atoms ty p'.
Proof.
  intros HB (Hc & Hcut & Hu) Hst HG Hnd Hat Hmin Href. destruct (boundary_facts B HB) as [F1 F2 F3 F4 F6 F5].
  assert (Hsub : forall p pos pos' p' new, pl_state M cap A Pc skin cut p ->
    (forall a, a ∈ atoms -> (a < cap)%nat /\ near_cell_of (bBrav B) (pos a)) ->
    pl_refresh M (bGen B) (bDist B) (bWrap B) (bLens B) masked atoms pos p = Ok (pos', p') ->
    pl_isCurrent (bDist B) new p' = Ok true -> forall fuel, (length (stored p') < fuel)%nat ->
    md_pair_energy (bDist B) u fuel p' new ty = Ok (Some (pair_energy (bDist B) masked u atoms new ty))).
  { clear p pos pos' p' Hst Hat Href. intros p pos pos' p' new Hst Hat Href Hcur fuel Hf.
    assert (Hat' : forall a, a ∈ atoms -> (a < cap)%nat /\ primary (bGen B (bWrap B (pos a)))).
    { intros a Ha. destruct (Hat a Ha). auto. }
    destruct (builds_general M cap A Pc _ _ _ _ (bBrav B) masked skin cut n atoms pos p ltac:(lra) F1 F2 F3 Hst HG Hnd Hat')
      as [(pos1 & p1 & l & E & Hp & Hcl & Hv & _)|[E _]]; rewrite Href in E; [|done]. injection E as <- <-.
    pose proof (refresh_state _ _ _ _ _ _ _ _ _ _ _ _ _ _ _ _ Hst Href) as Hst'.
    destruct (pair_iterator_correct _ _ _ _ _ _ _ (Rlt_le _ _ Hc) Hst') as (_ & Hit & _).
    eapply (md_energy_general _ (bBrav B) _ _ cut skin atoms pos'); try done.
    by apply (current_general M cap A Pc (bGen B) _ (bWrap B) (bLens B) _ _ _ _ n _ pos p); try lra. }
  intros new Hnew. unfold md_update.
  assert (Hat' : forall a, a ∈ atoms -> (a < cap)%nat /\ primary (bGen B (bWrap B (pos a)))).
  { intros a Ha. destruct (Hat a Ha). auto. }
  destruct (current_general M cap A Pc (bGen B) _ (bWrap B) (bLens B) (bBrav B) masked skin cut n atoms pos p pos' p' ltac:(lra) F1 F2 F3 Hst HG Hnd Hat' Hmin Href new)
    as (c & Hcur & _). rewrite Hcur. cbn [obind]. destruct c.
  { left. exists new, p'. split; [done|]. split; [by left|]. by apply (Hsub p pos pos' p' new). }
  pose proof (refresh_state _ _ _ _ _ _ _ _ _ _ _ _ _ _ _ _ Hst Href) as Hst'.
  assert (Hnew' : forall a, a ∈ atoms -> (a < cap)%nat /\ primary (bGen B (bWrap B (new a)))).
  { intros a Ha. destruct (Hnew a Ha). auto. }
  destruct (builds_general M cap A Pc _ _ _ _ (bBrav B) masked skin cut n atoms new p' ltac:(lra) F1 F2 F3 Hst' HG Hnd Hnew')
      as [(pos1 & p1 & l & E & Hp & _)|H]; [left|by right].
  exists pos1, p1. split; [done|]. split; [by right|]. apply (Hsub p' new pos1 p1 pos1 Hst' Hnew E).
  destruct (current_general M cap A Pc (bGen B) _ (bWrap B) (bLens B) (bBrav B) masked skin cut n atoms new p' pos1 p1 ltac:(lra) F1 F2 F3 Hst' HG Hnd Hnew' Hmin E pos1)
    as (c & Hc1 & Hiff & _). rewrite Hc1. f_equal. apply Hiff. intros a _.
  destruct (state_stok M cap A Pc skin cut p' ltac:(lra) Hst') as [_ _ _ _ Hs0 _].
  rewrite F6. nra.
Qed.

(** C60 for MdSystem, orthorhombic box: for any earlier use of the pair list, any configuration [pos] in which it was last
    built, and any present configuration. *)
Theorem md_energy_correct :
  forall M cap A Pc b masked u cut skin n atoms pos ty p pos' p',
  a_box b -> interaction_ok cut u -> pl_state M cap A Pc skin cut p -> grid_of (oLen b) (cut + skin) n -> NoDup atoms ->
  (forall a, a ∈ atoms -> (a < cap)%nat /\ near_cell_of (oBrav b) (pos a)) ->
  pl_refresh M (cartToGen b) (distanceSq b) (shift1 b) (oLen b) masked atoms pos p = Ok (pos', p') ->
  md_energy_ok M cap A Pc (ortho_bd b) masked u cut skin n atoms ty p'.
Proof.
  intros M cap A Pc b masked u cut skin n atoms pos ty p pos' p' Hb Hi Hst HG Hnd Hat Href.
  eapply (md_energy_boundary M cap A Pc (ortho_bd b) masked u cut skin n atoms pos ty p pos' p'); try done; [left; eauto|].
  cbn [ortho_bd bGen bDist bBrav]. intros r q m Hr Hq Hd. pose proof (ortho_distanceSq_min_image b r q Hb) as HMI.
  destruct (distanceSq_shift b r q) as [d t]. destruct (distanceSq_dr b r q) as [d' dr].
  destruct HMI as (E1 & _ & _ & _ & Hmin & _).
  - intros i Hi'. pose proof (proj2 (proj2 (proj2 (ortho_transforms_inverse b Hb)))) as Hbox.
    destruct Hbox as [_ Hbox]. pose proof (proj2 (Hbox r) Hr i Hi'). pose proof (proj2 (Hbox q) Hq i Hi').
    unfold Rabs. destruct (Rcase_abs _); lra.
  - specialize (Hmin m). rewrite <- E1. lra.
Qed.
(** The same for a monoclinic box whose cutoff + skin is at most minLength()/2. *)
Theorem md_energy_correct_mono :
  forall M cap A Pc b masked u cut skin n atoms pos ty p pos' p',
  a_mbox b -> cut + skin <= mMinLen b / 2 ->
  interaction_ok cut u -> pl_state M cap A Pc skin cut p -> grid_of (mLengths b) (cut + skin) n -> NoDup atoms ->
  (forall a, a ∈ atoms -> (a < cap)%nat /\ near_cell_of (mBrav b) (pos a)) ->
  pl_refresh M (mono_cartToGen b) (mono_distanceSq b) (mono_shift1 b) (mLengths b) masked atoms pos p = Ok (pos', p') ->
  md_energy_ok M cap A Pc (mono_bd b) masked u cut skin n atoms ty p'.
Proof.
  intros M cap A Pc b masked u cut skin n atoms pos ty p pos' p' Hb Hml Hi Hst HG Hnd Hat Href.
  pose proof (proj1 Hi) as Hc0.
  pose proof (st_sk0 _ _ _ _ _ _ (state_stok M cap A Pc skin cut p (Rlt_le _ _ Hc0) Hst)) as Hs0.
  eapply (md_energy_boundary M cap A Pc (mono_bd b) masked u cut skin n atoms pos ty p pos' p'); try done; [right; eauto|].
  cbn [mono_bd bGen bDist bBrav]. intros r q m Hr Hq Hd. pose proof (mono_distanceSq_image_partial b r q Hb) as HMI.
  destruct (mono_distanceSq_shift b r q) as [d2 t]. destruct (mono_distanceSq_dr b r q) as [d' dr].
  destruct HMI as (E1 & _ & _ & _ & _ & _ & Hmin).
  - intros i Hi'. pose proof (Hr i Hi'). pose proof (Hq i Hi'). unfold Rabs. destruct (Rcase_abs _); lra.
  - destruct (Hmin m) as [E _]; [nra|]. rewrite <- E1, E. done.
Qed.

(** MC and MD agree: for the same configuration in the cell, the pair energy from the cell list (here the total energy of a
    system without other potentials) is the one from the pair list. *)
Theorem mc_md_energy_agree :
  forall M cap A Pc b masked u cut skin n n' atoms s p pos' p',
  (2 <= M)%nat -> a_box b -> interaction_ok cut u -> pl_state M cap A Pc skin cut p ->
  grid_of (oLen b) (cut + skin) n -> grid_of (oLen b) cut n' -> NoDup atoms ->
  synced M cap (cartToGen b) (oLen b) cut n' atoms s ->
  (forall a, a ∈ atoms -> (a < cap)%nat /\ near_cell_of (oBrav b) (sPos s a)) ->
  pl_refresh M (cartToGen b) (distanceSq b) (shift1 b) (oLen b) masked atoms (sPos s) p = Ok (pos', p') ->
  pl_isCurrent (distanceSq b) (sPos s) p' = Ok true ->
  forall fuel, (length (stored p') < fuel)%nat ->
  exists e, sys_total M (distanceSq b) masked u [] None atoms s = Ok e /\
    md_pair_energy (distanceSq b) u fuel p' (sPos s) (sTy s) = Ok (Some e).
Proof.
  intros M cap A Pc b masked u cut skin n n' atoms s p pos' p' HM Hb Hi Hst HG HG' Hnd Hs Hat Href Hcur fuel Hf.
  assert (HB : a_boundary (ortho_bd b)) by (left; eauto). destruct Hi as (Hc & Hcut & Hu).
  pose proof (boundary_facts _ HB) as F. pose proof (boundary_adj _ cut n' HB Hc HG') as Hadj.
  exists (pair_energy (distanceSq b) masked u atoms (sPos s) (sTy s)). split.
  - pose proof (sys_total_eq M cap HM (cartToGen b) (distanceSq b) (oLen b) n' masked u cut [] None atoms Hnd (bf_pos _ F) Hc HG' Hadj Hcut s Hs) as E.
    rewrite E. f_equal. unfold total_energy, external_energy. rewrite sum_nil, sum_0; [ring|done].
  - destruct (md_energy_correct M cap A Pc b masked u cut skin n atoms (sPos s) (sTy s) p pos' p' Hb (conj Hc (conj Hcut Hu)) Hst HG Hnd Hat Href (sPos s) Hat)
      as [(pos2 & p2 & E & _ & H)|(E & _)]; unfold md_update in E; cbn [ortho_bd bDist] in E; rewrite Hcur in E; cbn [obind] in E; [|done].
    injection E as <- <-. by apply H.
Qed.

(** The hypotheses hold for the box and atoms of [pair_list_example]: atoms 0 and 1 are 3/5 apart through a face and have
    energy 1 - 9/25; atoms 2 and 3 are bonded and masked, with bond energy 1.  The total is 41/25. *)
Definition ex_u (r : R) (t1 t2 : Z) : R := if Rlt_dec r 1 then 1 - r else 0.
Definition ex_mask2 (i j : nat) : bool := bool_decide ((i = 2%nat /\ j = 3%nat) \/ (i = 3%nat /\ j = 2%nat)).
Definition ex_bonds : gkind :=
  GK (bond_kE (distanceSq ex_box) (fun r _ => r)) [0%nat] (fun _ => [Grp [2; 3]%nat 0%Z]) (fun _ => 0%nat)
     (fun a => if decide (a = 2 \/ a = 3)%nat then [0%nat] else []).
Lemma ex_dist a b x y z x' y' z' : a = V3 x y z -> b = V3 x' y' z' ->
  distanceSq ex_box a b = (sep_axis (10/2) 10 x x').1 * (sep_axis (10/2) 10 x x').1 + (sep_axis (10/2) 10 y y').1 * (sep_axis (10/2) 10 y y').1
      + (sep_axis (10/2) 10 z z').1 * (sep_axis (10/2) 10 z z').1.
Proof. destruct ex_wf as [lat W]. intros -> ->. unfold distanceSq. rewrite !(sep_eq _ _ _ _ _ _ W) by lia. cbn [vget vx vy vz]. lra. Qed.
Lemma ex_near a : near_cell_of (oBrav ex_box) (ex_pos a).
Proof.
  destruct ex_wf as [lat W]. rewrite (w_brav _ _ _ W). exists (vscale (1/10) (ex_pos a)). split.
  - destruct (ex_pos a) as [x y z]. unfold combo, vadd, vscale, diag. cbn. f_equal; lra.
  - intros i Hi. unfold ex_pos. destruct a as [|[|[|]]]; destruct i as [|[|[|]]]; try lia; cbn; lra.
Qed.
Lemma ex_wrap a : shift1 ex_box (ex_pos a) = match a with 1%nat => V3 (48/5) 1 1 | _ => ex_pos a end.
Proof.
  destruct ex_wf as [lat W]. unfold shift1. rewrite (w_min _ _ _ W), (w_max _ _ _ W), (w_len _ _ _ W). unfold shift1_axis.
  destruct a as [|[|[|]]]; cbn [ex_pos vget vx vy vz vzero]; repeat (destruct (Rge_dec _ _); [lra|]); repeat destruct (Rlt_dec _ _); try lra; f_equal; lra.
Qed.
Example mc_energy_example :
  let s := MC ex_pos (fun _ => 0%Z) (cl_new 4) in
  a_boundary (ortho_bd ex_box) /\ interaction_ok 1 ex_u /\ grid_of (oLen ex_box) 1 (V3 10 10 10)%Z /\
  kind_ok [0; 1; 2; 3]%nat ex_bonds /\
  (forall a, a ∈ [0; 1; 2; 3]%nat -> (a < 4)%nat /\ near_cell_of (oBrav ex_box) (ex_pos a)) /\
  ~ crowded (cartToGen ex_box) (V3 10 10 10)%Z (61 - 1) [0; 1; 2; 3]%nat (fun a => shift1 ex_box (ex_pos a)) /\
  exists s', mc_build 61 (cartToGen ex_box) (shift1 ex_box) (oLen ex_box) 1 [0; 1; 2; 3]%nat s = Ok s' /\
    sys_total 61 (distanceSq ex_box) ex_mask2 ex_u [ex_bonds] None [0; 1; 2; 3]%nat s' = Ok (41/25).
Proof.
  intros s. destruct ex_wf as [lat W].
  assert (HB : a_boundary (ortho_bd ex_box)) by (left; exists ex_box; split; [apply ex_a_box|done]).
  assert (Hi : interaction_ok 1 ex_u).
  { split; [lra|]. split; intros; unfold ex_u; [destruct (Rlt_dec _ _); lra|done]. }
  assert (HG : grid_of (oLen ex_box) 1 (V3 10 10 10)%Z).
  { rewrite (w_len _ _ _ W). intros [|[|[|]]] Hj; try lia; cbn [vget vx vy vz]; (split; [lia|]; split; [rewrite plus_IZR; lra|right; lra]). }
  assert (Hat : forall a, a ∈ [0; 1; 2; 3]%nat -> (a < 4)%nat /\ near_cell_of (oBrav ex_box) (ex_pos a)).
  { intros a Ha. split; [rewrite !elem_of_cons, elem_of_nil in Ha; lia|apply ex_near]. }
  assert (Hcr : ~ crowded (cartToGen ex_box) (V3 10 10 10)%Z (61 - 1) [0; 1; 2; 3]%nat (fun a => shift1 ex_box (ex_pos a))).
  { apply few_not_crowded. cbn. lia. }
  split; [done|]. split; [done|]. split; [done|]. split.
  { split; [apply NoDup_singleton|]. intros a Ha. split; [left|]. cbn [ex_bonds kIds kGrp kMolOf kMols gAt].
    split; [destruct (decide _); [apply NoDup_singleton|constructor]|]. split.
    - intros id. split.
      + intros Hid. destruct (decide _) as [H23|]; [|by apply elem_of_nil in Hid]. apply elem_of_list_singleton in Hid as ->.
        exists (Grp [2; 3]%nat 0%Z). split; [done|]. cbn. rewrite !elem_of_cons. tauto.
      + intros (g & Hg & Hin). destruct id as [|id]; [|done]. injection Hg as <-. cbn in Hin. rewrite !elem_of_cons, elem_of_nil in Hin.
        rewrite decide_True by tauto. left.
    - intros m g Hm _ _. by apply elem_of_list_singleton in Hm. }
  split; [done|]. split; [done|].
  destruct (mc_energy_correct 61 4 (ortho_bd ex_box) ex_mask2 ex_u 1 [ex_bonds] None (V3 10 10 10)%Z [0; 1; 2; 3]%nat s) as (s' & E & _ & HP & _ & HE);
    [lia|done|done|done|apply (bool_decide_eq_true_1 (NoDup _)); reflexivity|done|done|done|].
  exists s'. split; [done|]. cbn [ortho_bd bDist bWrap] in HE, HP. rewrite HE. f_equal.
  assert (P : forall a, a ∈ [0; 1; 2; 3]%nat -> sPos s' a = match a with 1%nat => V3 (48/5) 1 1 | _ => ex_pos a end).
  { intros a Ha. rewrite HP, decide_True by done. apply ex_wrap. }
  assert (P0 : sPos s' 0%nat = V3 (1/5) 1 1) by (rewrite P by (rewrite !elem_of_cons; tauto); done).
  assert (P1 : sPos s' 1%nat = V3 (48/5) 1 1) by (rewrite P by (rewrite !elem_of_cons; tauto); done).
  assert (P2 : sPos s' 2%nat = V3 5 5 5) by (rewrite P by (rewrite !elem_of_cons; tauto); done).
  assert (P3 : sPos s' 3%nat = V3 5 5 6) by (rewrite P by (rewrite !elem_of_cons; tauto); done).
  assert (D01 : distanceSq ex_box (sPos s' 0%nat) (sPos s' 1%nat) = 9/25).
  { rewrite (ex_dist _ _ _ _ _ _ _ _ P0 P1). rewrite (sep_lo 10 (1/5)) by (try lra; rewrite Rabs_left by lra; lra).
    rewrite !sep_in by (apply Rabs_le; lra). cbn [fst]. lra. }
  assert (D23 : distanceSq ex_box (sPos s' 2%nat) (sPos s' 3%nat) = 1).
  { rewrite (ex_dist _ _ _ _ _ _ _ _ P2 P3). rewrite !sep_in by (apply Rabs_le; lra). cbn [fst]. lra. }
  assert (U0 : forall r, 1 <= r -> ex_u r (sTy s' 0%nat) (sTy s' 0%nat) = 0).
  { intros r Hr. unfold ex_u. destruct (Rlt_dec _ _); lra. }
  assert (D02 : 1 <= distanceSq ex_box (sPos s' 0%nat) (sPos s' 2%nat)).
  { rewrite (ex_dist _ _ _ _ _ _ _ _ P0 P2). rewrite !sep_in by (apply Rabs_le; lra). cbn [fst]. lra. }
  assert (D03 : 1 <= distanceSq ex_box (sPos s' 0%nat) (sPos s' 3%nat)).
  { rewrite (ex_dist _ _ _ _ _ _ _ _ P0 P3). rewrite !sep_in by (apply Rabs_le; lra). cbn [fst]. lra. }
  assert (D12 : 1 <= distanceSq ex_box (sPos s' 1%nat) (sPos s' 2%nat)).
  { rewrite (ex_dist _ _ _ _ _ _ _ _ P1 P2). rewrite !sep_in by (apply Rabs_le; lra). cbn [fst]. lra. }
  assert (D13 : 1 <= distanceSq ex_box (sPos s' 1%nat) (sPos s' 3%nat)).
  { rewrite (ex_dist _ _ _ _ _ _ _ _ P1 P3). rewrite !sep_in by (apply Rabs_le; lra). cbn [fst]. lra. }
  unfold total_energy, pair_energy, bonded_energy, external_energy, sum_over, ex_mask2. cbn [ex_bonds kMols kGrp kE gAt gTy map bond_kE Rsum].
  repeat match goal with |- context [decide (?x < ?y)%nat] => (rewrite (decide_True (P := (x < y)%nat)) by lia) || (rewrite (decide_False (P := (x < y)%nat)) by lia) end.
  repeat match goal with |- context [bool_decide ?P] => (rewrite (bool_decide_eq_true_2 P) by tauto) || (rewrite (bool_decide_eq_false_2 P) by lia) end.
  unfold ex_u. rewrite D01, D23. repeat destruct (Rlt_dec _ _); lra.
Qed.

Print Assumptions mc_energy_correct.
Print Assumptions md_energy_correct.
Print Assumptions md_energy_correct_mono.
Print Assumptions mc_md_energy_agree.
