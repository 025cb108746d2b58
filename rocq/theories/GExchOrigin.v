(** Where the plan of a group comes from. *)
From Verif Require Import Base Containers Vec3 PlanModel DomainModel DomainSpec DomainProofs DomainProps SpeciesModel SpeciesProofs SimProofs DistSpec ExchModel ExchSpec ExchProofs ExchAtoms ExchElem ExchStart ExchGhost ExchCopies ExchFinal GExchModel GExchSpec GExchProofs GExchAtoms.
From Coq Require Import Reals Lra.
Local Open Scope nat_scope.

(** Prefixes of the list of directions. *)
Lemma dirs_cases pre i j ds : dirs = pre ++ (i, j) :: ds ->
  i < 3 /\ j < 2 /\ (i, j) ∉ pre /\ (forall k l, (k, l) ∈ pre -> k < 3 /\ l < 2) /\ (forall l, (i, l) ∈ pre -> l = 0 /\ j = 1) /\ (forall k l, (k, l) ∈ pre -> k <> i -> (k, 1) ∈ pre).
Proof.
  unfold dirs. intros E.
  destruct pre as [|[? ?] pre]; [injection E as <- <- _|injection E as <- <- E; destruct pre as [|[? ?] pre]; [injection E as <- <- _|injection E as <- <- E;
    destruct pre as [|[? ?] pre]; [injection E as <- <- _|injection E as <- <- E; destruct pre as [|[? ?] pre]; [injection E as <- <- _|injection E as <- <- E;
    destruct pre as [|[? ?] pre]; [injection E as <- <- _|injection E as <- <- E; destruct pre as [|[? ?] pre]; [injection E as <- <- _|injection E as <- <- E]]]]]].
  all: try (destruct pre; discriminate).
  all: split; [lia|]; split; [lia|]; split; [rewrite ?elem_of_cons, elem_of_nil; intros X; repeat (destruct X as [X|X]; [discriminate|]); done|].
  all: split; [intros k l Hk; rewrite ?elem_of_cons, elem_of_nil in Hk; repeat (destruct Hk as [Hk|Hk]; [injection Hk as -> ->; lia|]); done|].
  all: split; [intros l Hk; rewrite ?elem_of_cons, elem_of_nil in Hk; repeat (destruct Hk as [Hk|Hk]; [injection Hk; intros; lia|]); done|].
  all: intros k l Hk Hne; rewrite ?elem_of_cons, elem_of_nil in Hk |- *; repeat (destruct Hk as [Hk|Hk]; [injection Hk as -> ->; first [lia|tauto]|]); done.
Qed.

Section origin.
  Context (dims : vec3 Z) (Hd : grid_ok dims) (G : list bond) (HK : NoDup (map bkey G)).
  Notation n := (n_proc dims).
  Notation crd r i := (vget (coords dims r) i).

  Lemma crd_dst_ne i j k r : i < 3 -> k < 3 -> r < n -> k <> i -> crd (dst dims i j r) k = crd r k.
  Proof. intros Hi Hk Hr Hne. rewrite coords_dst by done. unfold nbr. destruct i as [|[|[|]]], k as [|[|[|]]]; try lia; done. Qed.
  Lemma crd_dst_eq i j r r' : i < 3 -> r < n -> r' < n -> crd r i = crd r' i -> crd (dst dims i j r) i = crd (dst dims i j r') i.
  Proof.
    intros Hi Hr Hr' E. rewrite !coords_dst by done. unfold nbr.
    destruct i as [|[|[|]]]; try lia; cbn [vset vget vx vy vz] in *; congruence.
  Qed.
  (** Moves that have been made. *)
  Definition mvs (pre : list (nat * nat)) (u : nat * xatom) : nat * xatom := fold_left (fun u ij => mv dims ij.1 ij.2 u) pre u.
  Lemma mv_keep i j u : xId (mv dims i j u).2 = xId u.2 /\ xPlan (mv dims i j u).2 = xPlan u.2.
  Proof. unfold mv. destruct (ex i j u.2); done. Qed.
  Lemma mvs_keep pre : forall u, xId (mvs pre u).2 = xId u.2 /\ xPlan (mvs pre u).2 = xPlan u.2.
  Proof.
    induction pre as [|[i j] pre IH]; intros u; [done|]. unfold mvs in *. cbn [fold_left fst snd]. destruct (IH (mv dims i j u)) as [-> ->]. apply mv_keep.
  Qed.
  Lemma mvs_crd i pre : i < 3 -> forall u, u.1 < n -> (forall k l, (k, l) ∈ pre -> k < 3 /\ l < 2 /\ (k <> i \/ ex k l u.2 = false)) -> crd (mvs pre u).1 i = crd u.1 i /\ (mvs pre u).1 < n.
  Proof.
    intros Hi. induction pre as [|[k l] pre IH]; intros u Hu Hp; [done|]. unfold mvs in *. cbn [fold_left fst snd].
    destruct (Hp k l ltac:(by left)) as (Hk & Hl & Hc).
    assert (H1 : (mv dims k l u).1 < n) by (unfold mv; destruct (ex k l u.2); [by apply dst_lt|done]).
    assert (H2 : crd (mv dims k l u).1 i = crd u.1 i).
    { unfold mv. destruct Hc as [Hc|Hc]; [|by rewrite Hc]. destruct (ex k l u.2); [|done]. cbn [fst]. by apply crd_dst_ne. }
    destruct (IH (mv dims k l u) H1) as [I1 I2].
    { intros a b Hab. destruct (Hp a b ltac:(by right)) as (X1 & X2 & X3). split; [done|]. split; [done|]. destruct X3 as [X3|X3]; [by left|right]. unfold ex in *. by rewrite (proj2 (mv_keep k l u)). }
    split; [congruence|done].
  Qed.

  Context (st0 : list gproc) (HI0 : inv dims dirs (map gpX st0)).
  (** The record [g] of processor [r] has its plan from processor [r0], after the transfers [pre]. *)
  Definition shifted (pre : list (nat * nat)) (r : nat) (q : gproc) (g : ggroup) (r0 i : nat) : Prop := exists j u,
    (1 < vget dims i)%Z /\ j < 2 /\ (i, j) ∈ pre /\ u ∈ T (map gpX st0) /\ xId u.2 ∈ gAtoms g /\ ex i j u.2 = true /\ crd u.1 i = crd r0 i /\ crd r i = crd (dst dims i j r0) i /\
    ((i, 1) ∉ pre -> forall h, h ∈ xpLocals (gpX q) -> xId (xpMem (gpX q) h) ∈ gAtoms g -> ex i j (xpMem (gpX q) h) = true).
  Definition origin (pre : list (nat * nat)) (r : nat) (q : gproc) (g : ggroup) : Prop := exists r0 q0 g0,
    st0 !! r0 = Some q0 /\ g0 ∈ gpGroups q0 /\ bond_of g0 = bond_of g /\ gPlan g0 = gPlan g /\ forall i, i < 3 -> crd r i = crd r0 i \/ shifted pre r q g r0 i.

  Lemma origin_round pre i j ds sys sys' r q q' g : dirs = pre ++ (i, j) :: ds -> inv dims ((i, j) :: ds) (map gpX sys) -> T (map gpX sys) ≡ₚ map (mvs pre) (T (map gpX st0)) ->
    (forall r q, sys !! r = Some q -> rgt G q) -> ground i j sys = Ok sys' ->
    (forall r q g, sys !! r = Some q -> g ∈ gpGroups q -> origin pre r q g) ->
    sys !! r = Some q -> gstep dims i j sys r q q' -> g ∈ gpGroups q' -> origin (pre ++ [(i, j)]) r q' g.
  Proof.
    intros E HI HT HR H HO Hq HS Hg. destruct (dirs_cases pre i j ds E) as (Hi & Hj & Hnin & Hpre & Hpi & Hpk).
    assert (Hlen : length sys = n) by (rewrite <- (map_length gpX); exact (inv_len _ _ _ HI)). assert (Hrn : r < n) by (rewrite <- Hlen; by eapply lookup_lt_Some).
    assert (Hlen0 : length st0 = n) by (rewrite <- (map_length gpX); exact (inv_len _ _ _ HI0)).
    destruct (decide (1 < vget dims i)%Z) as [B|B].
    - destruct (gstep_right dims G HK i j sys r q q' HR Hq HS) as [R' HTk]. destruct (HTk B) as (qs & Hqs & TK). clear HTk.
      destruct (tk_plan _ _ _ _ _ TK g Hg) as [(g1 & Hg1 & E1 & P1)|[Hno (m & Hm & E1 & P1)]].
      + (* the record was here *)
        unfold gpack in Hg1. cbn [fst] in Hg1. apply elem_of_filter_b in Hg1 as [Hg1 _]. apply elem_of_map in Hg1 as (g2 & -> & Hg2). rewrite drop_ptrs_bond in E1. change (gPlan (drop_ptrs _ g2)) with (gPlan g2) in P1.
        assert (EA : gAtoms g = gAtoms g2) by (exact (f_equal bAtoms (eq_sym E1))).
        destruct (HO r q g2 Hq Hg2) as (r0 & q0 & g0 & O1 & O2 & O3 & O4 & O5). exists r0, q0, g0. split; [done|]. split; [done|]. split; [congruence|]. split; [congruence|].
        intros k Hk. destruct (O5 k Hk) as [O|(l & u & S1 & S2 & S3 & S4 & S5 & S6 & S7 & S8 & S9)]; [by left|right]. exists l, u. split; [done|]. split; [done|]. split; [apply elem_of_app; by left|]. split; [done|]. split; [by rewrite EA|].
        split; [done|]. split; [done|]. split; [done|]. intros HN. exfalso. apply HN. rewrite elem_of_app. destruct (decide (k = i)) as [->|Hne]; [|left; by apply (Hpk k l)].
        destruct (Hpi l S3) as [_ ->]. right. by left.
      + (* the record was received *)
        destruct (gpack_msg i j G qs (HR _ qs Hqs)) as (_ & _ & M3). destruct (M3 m Hm) as (g2 & Hg2 & E2 & P2 & h & Hh & Hid & Hex).
        assert (EA : gAtoms g = gAtoms g2) by (exact (f_equal bAtoms (eq_trans (eq_sym E1) E2))). assert (EA' : gAtoms m = gAtoms g2) by (exact (f_equal bAtoms E2)).
        set (rs := src dims i j r) in *. assert (Hrs : rs < n) by (by apply src_lt). assert (Er : dst dims i j rs = r) by (by apply dst_src).
        destruct (HO rs qs g2 Hqs Hg2) as (r0 & q0 & g0 & O1 & O2 & O3 & O4 & O5). assert (Hr0 : r0 < n) by (rewrite <- Hlen0; by eapply lookup_lt_Some).
        exists r0, q0, g0. split; [done|]. split; [done|]. split; [congruence|]. split; [congruence|].
        (* the atom that was sent with it *)
        assert (HhT : (rs, nf (xpMem (gpX qs) h)) ∈ T (map gpX sys)).
        { apply (elem_T _ rs (gpX qs)); [by rewrite list_lookup_fmap, Hqs|]. unfold L. apply elem_of_map. eauto. }
        pose proof (proj1 (Forall_forall _ _) (iv_excl _ _ _ HI) _ HhT) as Hexcl. cbn [snd] in Hexcl.
        rewrite HT in HhT. apply elem_of_map in HhT as (u & Eu & Hu). pose proof (mvs_keep pre u) as [K1 K2]. rewrite <- Eu in K1, K2. cbn [snd nf xId xPlan] in K1, K2.
        assert (Hun : u.1 < n). { destruct u as [ru au]. destruct (T_elem _ _ _ Hu) as (pu & Hpu & _). apply lookup_lt_Some in Hpu. rewrite map_length in Hpu. cbn [fst]. lia. }
        assert (Hexu : forall a b, ex a b u.2 = ex a b (xpMem (gpX qs) h)) by (intros a b; unfold ex; by rewrite K2).
        assert (Hex01 : j = 1 -> ex i 0 u.2 = false). { intros ->. destruct (ex i 0 u.2) eqn:X; [|done]. exfalso. apply (Hexcl i Hi); [unfold ex in *; cbn [nf xPlan]; by rewrite K2|exact Hex]. }
        assert (Hcu : crd rs i = crd u.1 i).
        { destruct (mvs_crd i pre Hi u Hun) as [X _].
          - intros k l Hkl. destruct (Hpre k l Hkl) as [? ?]. split; [done|]. split; [done|]. destruct (decide (k = i)) as [->|]; [right|by left]. destruct (Hpi l Hkl) as [-> ->]. by apply Hex01.
          - rewrite <- Eu in X. exact X. }
        intros k Hk. destruct (decide (k = i)) as [->|Hne].
        * right. destruct (O5 i Hi) as [O|(l & u' & S1 & S2 & S3 & S4 & S5 & S6 & S7 & S8 & S9)].
          -- exists j, u. split; [done|]. split; [done|]. split; [apply elem_of_app; right; by left|]. split; [done|]. split; [rewrite EA, <- K1, <- EA'; exact Hid|]. split; [rewrite Hexu; exact Hex|].
             split; [congruence|]. split; [rewrite <- Er; by apply crd_dst_eq|]. intros _ h' Hh' Hid'.
             (* no atom of the group was here before *)
             destruct (xs_flag _ _ _ _ _ _ _ (gs_x _ _ _ _ _ _ _ HS) B) as (ps & news & Hps & EL & EM & HN & EN). fold rs in Hps; rewrite list_lookup_fmap, Hqs in Hps. cbn in Hps. injection Hps as <-.
             rewrite EL in Hh'. apply elem_of_app in Hh' as [Hh'|Hh'].
             ++ exfalso. assert (X : bond_of g ∈ map bond_of (gpack i j q).1).
                { apply (rt_in _ _ _ _ (gpack_left i j G q (HR r q Hq))). split; [exact (proj1 (proj1 (rt_in _ _ _ _ R' _) (elem_bond _ _ Hg)))|].
                  exists h'. split; [exact Hh'|]. apply elem_of_filter_b in Hh' as [Hh' _]. rewrite <- EM by done. exact Hid'. }
                apply elem_of_map in X as (g3 & E3 & Hg3). by destruct (Hno g3 Hg3).
             ++ assert (X : (xId (xpMem (gpX q') h'), xPlan (xpMem (gpX q') h')) ∈ map (fun h => (xId (xpMem (gpX qs) h), xPlan (xpMem (gpX qs) h))) (List.filter (fun h => ex i j (xpMem (gpX qs) h)) (xpLocals (gpX qs)))).
                { rewrite <- EN. apply elem_of_map. eauto. }
                apply elem_of_map in X as (h2 & X & Hh2). injection X as X1 X2. apply elem_of_filter_b in Hh2 as [_ Hh2]. unfold ex in *. by rewrite X2.
          -- exfalso. destruct (Hpi l S3) as [-> ->]. specialize (S9 Hnin h Hh ltac:(by rewrite <- EA')). apply (Hexcl i Hi); [exact S9|exact Hex].
        * assert (Ec : crd r k = crd rs k) by (rewrite <- Er; by apply crd_dst_ne). destruct (O5 k Hk) as [O|(l & u' & S1 & S2 & S3 & S4 & S5 & S6 & S7 & S8 & S9)]; [left; congruence|right].
          exists l, u'. split; [done|]. split; [done|]. split; [apply elem_of_app; by left|]. split; [done|]. split; [by rewrite EA|]. split; [done|]. split; [done|]. split; [congruence|].
          intros HN. exfalso. apply HN. apply elem_of_app. left. by apply (Hpk k l).
    - rewrite (gs_noflag _ _ _ _ _ _ _ HS B) in Hg. destruct (xs_noflag _ _ _ _ _ _ _ (gs_x _ _ _ _ _ _ _ HS) B) as [EL EM].
      destruct (HO r q g Hq Hg) as (r0 & q0 & g0 & O1 & O2 & O3 & O4 & O5). exists r0, q0, g0. split; [done|]. split; [done|]. split; [done|]. split; [done|].
      intros k Hk. destruct (O5 k Hk) as [O|(l & u' & S1 & S2 & S3 & S4 & S5 & S6 & S7 & S8 & S9)]; [by left|right].
      exists l, u'. split; [done|]. split; [done|]. split; [apply elem_of_app; by left|]. split; [done|]. split; [done|]. split; [done|]. split; [done|]. split; [done|].
      intros HN. exfalso. apply HN. apply elem_of_app. destruct (decide (k = i)) as [->|Hne]; [lia|]. left. by apply (Hpk k l).
  Qed.

  Lemma origin_rounds ds : forall pre sys sys', dirs = pre ++ ds -> inv dims ds (map gpX sys) -> T (map gpX sys) ≡ₚ map (mvs pre) (T (map gpX st0)) ->
    (forall r q, sys !! r = Some q -> rgt G q) -> (forall r q g, sys !! r = Some q -> g ∈ gpGroups q -> origin pre r q g) ->
    foldM (fun sys ij => ground ij.1 ij.2 sys) sys ds = Ok sys' -> forall r q g, sys' !! r = Some q -> g ∈ gpGroups q -> origin dirs r q g.
  Proof.
    induction ds as [|[i j] ds IH]; intros pre sys sys' E HI HT HR HO H; cbn [foldM fst snd] in *.
    - injection H as <-. rewrite app_nil_r in E. by subst pre.
    - destruct (ground i j sys) as [s1| |] eqn:E1; cbn [obind] in H; try discriminate. assert (HA : after i j ds) by (by exists pre).
      destruct (ground_step dims Hd i j ds sys s1 HA HI E1) as (HX & HL & HS). destruct (round_inv dims Hd i j ds _ _ HA HI HX) as (I1 & T1 & _).
      assert (HB : forall r q', s1 !! r = Some q' -> exists q, sys !! r = Some q /\ gstep dims i j sys r q q').
      { intros r q' Hq'. destruct (sys !! r) as [q|] eqn:Eq; [|apply lookup_ge_None in Eq; apply lookup_lt_Some in Hq'; lia]. destruct (HS r q Eq) as (q2 & ? & ?). assert (q2 = q') by congruence. subst. eauto. }
      apply (IH (pre ++ [(i, j)]) s1 sys'); [by rewrite <- app_assoc|exact I1| | | |exact H].
      + rewrite T1, HT, map_map. unfold mvs. rewrite (map_ext _ (fun u => fold_left (fun u ij => mv dims ij.1 ij.2 u) (pre ++ [(i, j)]) u)); [done|]. intros u. by rewrite fold_left_app.
      + intros r q' Hq'. destruct (HB r q' Hq') as (q & Hq & HSt). exact (proj1 (gstep_right dims G HK i j sys r q q' HR Hq HSt)).
      + intros r q' g Hq' Hg. destruct (HB r q' Hq') as (q & Hq & HSt). eapply origin_round; eauto.
  Qed.
End origin.

Lemma origin_start dims st0 r q g : st0 !! r = Some q -> g ∈ gpGroups q -> origin dims st0 [] r q g.
Proof. intros Hq Hg. exists r, q, g. split; [done|]. split; [done|]. split; [done|]. split; [done|]. intros i Hi. by left. Qed.

(** The whole of exchangeAtoms. *)
Lemma origins dims G s sys mid : group_system dims G sys -> foldM (fun sys ij => ground ij.1 ij.2 sys) (map (gstart s) sys) dirs = Ok mid ->
  forall r q g, mid !! r = Some q -> g ∈ gpGroups q -> origin dims (map (gstart s) sys) dirs r q g.
Proof.
  intros HG H. pose proof (gs_grid _ _ (gy_grid _ _ _ HG)) as Hd.
  refine (origin_rounds dims Hd G (gy_keys _ _ _ HG) (map (gstart s) sys) (starts_inv dims G s sys HG) dirs [] _ mid eq_refl (starts_inv dims G s sys HG) _ (starts_right dims G s sys HG) _ H).
  - unfold mvs. cbn [fold_left]. rewrite map_id. done.
  - intros r q g. apply origin_start.
Qed.
