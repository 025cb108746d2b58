(** Lemmas for the NphIntegrator. *)
From Coq Require Import Reals Lra.
From Coquelicot Require Import Coquelicot.
From stdpp Require Import gmap.
From Verif Require Import Base Vec3 BoxSpec OrthoModel OrthoSpec OrthoProofs OrthoProps MonoModel MonoSpec MonoProofs MonoProps.
From Verif Require Import McCellModel DomainModel DomainProofs SpeciesModel SpeciesProofs.
From Verif Require Import CellListModel CellListSpec CellListProofs CellListProps PairListModel PairListSpec PairListProofs PairListProps.
From Verif Require Import EnergyModel EnergySpec EnergyProofs MoveModel MoveSpec MoveProofs EnergyProps MoveProps MdModel MdSpec MdProofs MdForces MdProps.
From Verif Require Import ThermoModel ThermoSpec ThermoProofs NphModel NphSpec.
From Coq Require Import Reals Lra.
Local Open Scope R_scope.

Lemma vget_mul u v i : (i < 3)%nat -> vget (vmul u v) i = vget u i * vget v i.
Proof. intros Hi. destruct i as [|[|[|i]]]; [done..|lia]. Qed.
Lemma vget_div u v i : (i < 3)%nat -> vget (vdiv u v) i = vget u i / vget v i.
Proof. intros Hi. destruct i as [|[|[|i]]]; [done..|lia]. Qed.

Lemma box_of_facts b l : box_of b l -> positive3 l /\ oVol b = box_volume l.
Proof. intros ((l' & lat & Wf)%owf_a_box & <-). rewrite (w_len _ _ _ Wf). split; [apply (w_pos _ _ _ Wf)|]. rewrite (w_vol _ _ _ Wf). done. Qed.
Lemma set_len b l f : box_of b l -> oLen (setOrthorhombic b f) = f.
Proof.
  intros ((l' & lat & Wf)%owf_a_box & _). unfold setOrthorhombic, ortho_reset. cbn [oLen]. rewrite (w_min _ _ _ Wf). destruct f as [f0 f1 f2]. unfold OrthoModel.vzero. cbn [vget vx vy vz]. f_equal; ring.
Qed.
Lemma kinetic_stress_spec y b l vel : box_of b l -> kinetic_stress y b vel =
  V3 (sum_over (yAtoms y) (fun a => yMass y (yTy y a) * vget (vel a) 0 * vget (vel a) 0) / box_volume l)
     (sum_over (yAtoms y) (fun a => yMass y (yTy y a) * vget (vel a) 1 * vget (vel a) 1) / box_volume l)
     (sum_over (yAtoms y) (fun a => yMass y (yTy y a) * vget (vel a) 2 * vget (vel a) 2) / box_volume l).
Proof.
  intros Hb. destruct (box_of_facts b l Hb) as (_ & E). unfold kinetic_stress. rewrite E.
  assert (H : forall i, fold_left (fun P a => P + vget (vel a) i * (yMass y (yTy y a) * vget (vel a) i)) (yAtoms y) 0 =
    sum_over (yAtoms y) (fun a => yMass y (yTy y a) * vget (vel a) i * vget (vel a) i)).
  { intros i. rewrite (fold_sum (fun a => vget (vel a) i * (yMass y (yTy y a) * vget (vel a) i))), Rplus_0_l. apply sum_ext. intros a _. ring. }
  by rewrite !H.
Qed.
Lemma pressure_stress y b l vel v : box_of b l ->
  vadd v (kinetic_stress y b vel) = V3 (pressure y v l vel 0) (pressure y v l vel 1) (pressure y v l vel 2).
Proof. intros H. by rewrite (kinetic_stress_spec y b l vel H). Qed.
Lemma pressure_ext y v l u w i : (forall a, a ∈ yAtoms y -> w a = vscale (-1) (u a)) -> pressure y v l w i = pressure y v l u i.
Proof.
  intros H. unfold pressure. f_equal. f_equal. apply sum_ext. intros a Ha. rewrite (H a Ha), vget_scale. ring.
Qed.

Lemma nph_integrate1_spec y fac fac2 F pos vel : NoDup (yAtoms y) ->
  forall r, nph_integrate1 y fac fac2 F (pos, vel) = r ->
  forall a, (a ∈ yAtoms y -> r.2 a = vdiv (vadd (vel a) (vscale (prefactor y a) (F a))) fac /\
                             r.1 a = vmul (vadd (pos a) (vmul (vadd (vel a) (vscale (prefactor y a) (F a))) fac2)) fac) /\
            (a ∉ yAtoms y -> r.1 a = pos a /\ r.2 a = vel a).
Proof.
  unfold nph_integrate1. generalize (yAtoms y). intros l Hl r <-. revert pos vel.
  induction Hl as [|b l Hb Hl IH]; intros pos vel a.
  - split; [by intros H%elem_of_nil|done].
  - cbn [fold_left].
    destruct (IH (move pos b (vmul (vadd (pos b) (vmul (vadd (vel b) (vscale (prefactor y b) (F b))) fac2)) fac))
                    (move vel b (vdiv (vadd (vel b) (vscale (prefactor y b) (F b))) fac)) a) as [I1 I2].
    rewrite elem_of_cons. split.
    + destruct (decide (a = b)) as [->|Hn].
      * intros _. destruct (I2 Hb) as [-> ->]. by rewrite !move_same.
      * intros [?|Ha]; [done|]. destruct (I1 Ha) as [-> ->]. by rewrite !move_other.
    + intros Hn. destruct I2 as [-> ->]; [tauto|]. by rewrite !move_other by tauto.
Qed.

(** Barostat momenta and lengths. *)
Lemma nph_eta_back y mode extP V l e P : nph_eta y mode extP V l (vscale (-1) (nph_eta y mode extP V l e P)) P = vscale (-1) e.
Proof. unfold nph_eta. destruct e as [e0 e1 e2]. destruct mode; cbn [vscale vx vy vz]; try reflexivity; unfold vscale; cbn [vx vy vz]; f_equal; ring. Qed.
Lemma nph_eta_volume y mode extP V V' l e P : mode = Cubic \/ V = V' -> nph_eta y mode extP V l e P = nph_eta y mode extP V' l e P.
Proof. by intros [->| ->]. Qed.
Lemma cbrt_Ok v c : cbrt v = Ok c -> 0 < v /\ c = Rpower v (1/3) /\ 0 < c /\ c * c * c = v.
Proof.
  unfold cbrt. destruct (Rlt_dec 0 v) as [Hv|]; [|done]. intros [= <-]. split; [done|]. split; [done|].
  assert (Hp : forall x, 0 < Rpower v x) by (intros x; unfold Rpower; apply exp_pos).
  split; [apply Hp|]. rewrite <- !Rpower_plus. replace (1 / 3 + 1 / 3 + 1 / 3) with 1 by lra. by apply Rpower_1.
Qed.
Lemma cube_inj a b : 0 < a -> 0 < b -> a * a * a = b * b * b -> a = b.
Proof.
  intros Ha Hb E. assert (H : (a - b) * (a * a + a * b + b * b) = 0) by lra.
  apply Rmult_integral in H as [H|H]; [lra|]. exfalso. assert (0 < a * a) by nra. assert (0 < a * b) by nra. assert (0 < b * b) by nra. lra.
Qed.
Lemma cbrt_cube c : 0 < c -> cbrt (c * c * c) = Ok c.
Proof.
  intros Hc. assert (H3 : 0 < c * c * c) by (apply Rmult_lt_0_compat; [apply Rmult_lt_0_compat|]; done).
  destruct (cbrt (c * c * c)) as [d| |] eqn:E.
  - destruct (cbrt_Ok _ _ E) as (_ & _ & Hd & E3). f_equal. symmetry. by apply cube_inj.
  - exfalso. unfold cbrt in E. destruct (Rlt_dec 0 (c * c * c)); [|lra]. done.
  - exfalso. unfold cbrt in E. destruct (Rlt_dec 0 (c * c * c)); [|lra]. done.
Qed.
Lemma nph_lengths_shape y mode W l e h f : nph_lengths y mode W l e = Ok (h, f) -> shape mode f.
Proof.
  unfold nph_lengths. destruct mode; cbv zeta.
  - intros (m & _ & (c & _ & [= <- <-])%obind_Ok)%obind_Ok. by split.
  - by intros [= <- <-].
  - by intros [= <- <-].
  - done.
  - done.
Qed.
Lemma nph_lengths_back y mode W l e h f : positive3 l -> shape mode l -> nph_lengths y mode W l e = Ok (h, f) ->
  nph_lengths y mode W f (vscale (-1) e) = Ok (h, l).
Proof.
  intros (P0 & P1 & P2) Hs. unfold nph_lengths. destruct mode; cbn [shape] in Hs; cbv zeta; [..|done|done].
  - intros (m & H1 & (c & H2 & [= <- <-])%obind_Ok)%obind_Ok. cbn [vx vy vz vscale]. destruct Hs as [E1 E2].
    destruct (cbrt_Ok _ _ H1) as (_ & _ & Hm & Em). destruct (cbrt_Ok _ _ H2) as (_ & _ & Hc & Ec).
    replace (c * c * c + 1 / 2 * yDt y / W * (-1 * vx e)) with (m * m * m) by (rewrite Ec, Em; ring).
    rewrite (cbrt_cube m Hm). cbn [obind].
    replace (m * m * m + 1 / 2 * yDt y / W * (-1 * vx e)) with (vx l * vx l * vx l) by (rewrite Em, <- E2, <- E1; ring).
    rewrite (cbrt_cube (vx l) P0). cbn [obind]. do 2 f_equal. destruct l as [l0 l1 l2]; cbn [vx vy vz] in *. by subst.
  - intros [= <- <-]. cbn [vx vy vz vscale]. do 2 f_equal; [f_equal; ring|]. destruct l as [l0 l1 l2]; cbn [vx vy vz] in *. subst l2. f_equal; ring.
  - intros [= <- <-]. cbn [vx vy vz vscale]. do 2 f_equal; [f_equal; ring|]. destruct l as [l0 l1 l2]; cbn [vx vy vz]. f_equal; ring.
Qed.
Lemma nph_lengths_after y mode W l e h f : W <> 0 -> nph_lengths y mode W l e = Ok (h, f) ->
  box_after mode W (yDt y / 2) l e h /\ box_after mode W (yDt y) l e f.
Proof.
  intros HW. unfold nph_lengths. destruct mode; cbv zeta; cbn [box_after]; [..|done|done].
  - intros (m & H1 & (c & H2 & [= <- <-])%obind_Ok)%obind_Ok. cbn [vx vy vz]. unfold box_volume. cbn [vx vy vz].
    destruct (cbrt_Ok _ _ H1) as (_ & _ & Hm & ->). destruct (cbrt_Ok _ _ H2) as (_ & _ & Hc & ->).
    repeat split; try done; field; done.
  - intros [= <- <-]. cbn [vx vy vz]. repeat split; field; done.
  - intros [= <- <-]. split; intros i Hi; destruct i as [|[|[|i]]]; try lia; cbn [vget vx vy vz]; field; done.
Qed.
Lemma nph_volume_spec y mode W l e h f : nph_lengths y mode W l e = Ok (h, f) -> nph_volume y mode W l e f = box_volume f.
Proof.
  unfold nph_lengths, nph_volume. destruct mode; cbv zeta; [..|done|done].
  - intros (m & H1 & (c & H2 & [= <- <-])%obind_Ok)%obind_Ok. unfold box_volume. cbn [vx vy vz]. by destruct (cbrt_Ok _ _ H2) as (_ & _ & _ & ->).
  - by intros [= <- <-].
  - by intros [= <- <-].
Qed.

Lemma box_of_set b l f : box_of b l -> positive3 f -> box_of (setOrthorhombic b f) f.
Proof.
  intros Hb Hf. split; [|by apply (set_len b l)]. destruct Hb as ((ops & Ho & ->) & _). exists (ops ++ [SetOrtho f]). split; [apply Forall_app; split; [done|by constructor]|].
  by rewrite box_snoc.
Qed.

Lemma edge_lattice l m i : (i < 3)%nat -> vget (lattice_vector (edge_vectors l) m) i = vget l i * vget (V3 (IZR (vx m)) (IZR (vy m)) (IZR (vz m))) i.
Proof.
  intros Hi. destruct l as [l0 l1 l2]. unfold lattice_vector, edge_vectors. destruct i as [|[|[|i]]]; [..|lia]; unfold combo, vmap, vadd, vscale; cbn [vget vx vy vz]; ring.
Qed.

Lemma vget_ext (u v : vec3 R) : (forall i, (i < 3)%nat -> vget u i = vget v i) -> u = v.
Proof. intros H. destruct u as [a b c], v as [d e f]. pose proof (H 0%nat ltac:(lia)) as H0. pose proof (H 1%nat ltac:(lia)) as H1. pose proof (H 2%nat ltac:(lia)) as H2. cbn in *. by subst. Qed.

(** ** Steps *)
Section Steps.
  Context {X : Type} (y : mdsys) (mode : lattice) (W extP : R).
  Context (Force : vec3 R -> (nat -> vec3 R) -> nat -> vec3 R) (Vir : vec3 R -> (nat -> vec3 R) -> vec3 R).
  Context (Inv : X -> Prop) (good : vec3 R -> (nat -> vec3 R) -> Prop).
  Context (relist : ortho -> (nat -> vec3 R) -> X -> outcome ((nat -> vec3 R) * X)).
  Context (calc : ortho -> (nat -> vec3 R) -> (nat -> vec3 R) -> X -> outcome ((nat -> vec3 R) * (nat -> vec3 R) * X)).
  Context (virial : ortho -> (nat -> vec3 R) -> X -> outcome (vec3 R * (nat -> vec3 R) * X)).
  Context (L : lawful y Force Vir Inv good relist calc virial).
  Local Notation step := (nph_step y mode W extP relist calc virial).
  Local Notation run := (nph_run y mode W extP relist calc virial).
  Local Notation ready := (nph_ready y Force Inv good mode).
  Local Notation Pr l pos vel := (V3 (pressure y (Vir l pos) l vel 0) (pressure y (Vir l pos) l vel 1) (pressure y (Vir l pos) l vel 2)).

  (** A step in terms of the laws; the new positions are images of the raw ones. *)
  Lemma nph_step_spec s s' : ready s -> nph_within good s' -> step s = Ok s' ->
    ready s' /\ let l := oLen (hB s) in
    exists eta h, eta = nph_eta y mode extP (box_volume l) l (hEta s) (Pr l (mPos (hS s)) (mVel (hS s))) /\
      nph_lengths y mode W l eta = Ok (h, oLen (hB s')) /\
      hEta s' = nph_eta y mode extP (box_volume (oLen (hB s'))) (oLen (hB s')) eta (Pr (oLen (hB s')) (mPos (hS s')) (mVel (hS s'))) /\
      forall a, a ∈ yAtoms y -> exists k m, (* images before and after *)
        let f := oLen (hB s') in
        let v := vadd (mVel (hS s) a) (vscale (prefactor y a) (mFrc (hS s) a)) in
        mPos (hS s') a = vadd (vmul (vadd (vadd (mPos (hS s) a) (lattice_vector (edge_vectors l) k)) (vmul v (nph_fac2 y l h))) (nph_fac l f)) (lattice_vector (edge_vectors f) m) /\
        mVel (hS s') a = vadd (vdiv v (nph_fac l f)) (vscale (prefactor y a) (mFrc (hS s') a)).
  Proof using L.
    intros [Hb Hsh Hi Hg HF] [Hpos' Hg'] H. unfold nph_step in H. cbv zeta in H.
    apply obind_Ok in H as ([[P pos1] x1] & Hv & H). unfold nph_stress in Hv. apply obind_Ok in Hv as ([[v0 pos0] x0] & Hv & [= <- <- <-]).
    set (l := oLen (hB s)) in *.
    destruct (la_virial _ _ _ _ _ _ _ _ L _ _ _ _ _ _ _ Hb Hi Hv) as (Hi0 & Im0 & Ev).
    rewrite (Ev (la_good _ _ _ _ _ _ _ _ L _ _ _ Hg Im0)) in H. rewrite (la_vir _ _ _ _ _ _ _ _ L _ _ _ Hg Im0) in H. rewrite (pressure_stress y _ l _ _ Hb) in H.
    set (eta := nph_eta y mode extP _ l (hEta s) _) in H.
    apply obind_Ok in H as ([h f] & Hl & H). rewrite (nph_volume_spec _ _ _ _ _ _ _ Hl) in H.
    pose proof (nph_integrate1_spec y (nph_fac l f) (nph_fac2 y l h) (mFrc (hS s)) pos0 (mVel (hS s)) (la_nodup _ _ _ _ _ _ _ _ L) _ eq_refl) as H1.
    destruct (nph_integrate1 y _ _ _ _) as [pos2 vel2]. cbn [fst snd] in H1.
    apply obind_Ok in H as ([pos3 x3] & Hr & H). apply obind_Ok in H as ([[pos4 F] x4] & Hc & H).
    apply obind_Ok in H as ([[P' pos5] x5] & Hv' & H). unfold nph_stress in Hv'. apply obind_Ok in Hv' as ([[v1 pos5'] x5'] & Hv' & [= <- <- <-]).
    apply obind_Ok in H as ([pos6 x6] & Hr' & [= <-]). cbn [hB hEta hS mPos mVel mFrc mX] in *. 
    rewrite (set_len _ _ f Hb) in *.
    pose proof (box_of_set (hB s) l f Hb Hpos') as Hbf.
    destruct (la_relist _ _ _ _ _ _ _ _ L _ _ _ _ _ _ Hbf Hi0 Hr) as (Hi3 & Im3).
    destruct (la_calc _ _ _ _ _ _ _ _ L _ _ _ _ _ _ _ _ Hbf Hi3 Hc) as (Hi4 & Im4 & EF).
    destruct (la_virial _ _ _ _ _ _ _ _ L _ _ _ _ _ _ _ Hbf Hi4 Hv') as (Hi5 & Im5 & Ev').
    destruct (la_relist _ _ _ _ _ _ _ _ L _ _ _ _ _ _ Hbf Hi5 Hr') as (Hi6 & Im6).
    assert (Sym : forall p q, same_images (edge_vectors f) (yAtoms y) p q -> same_images (edge_vectors f) (yAtoms y) q p).
    { intros p q Hpq a Ha. destruct (Hpq a Ha) as [m Em]. exists (V3 (- vx m) (- vy m) (- vz m))%Z. rewrite Em. apply vget_ext. intros i Hi'.
      rewrite !vget_add, !edge_lattice by done. destruct i as [|[|[|i]]]; [..|lia]; cbn [vget vx vy vz]; rewrite opp_IZR; ring. }
    pose proof (la_good _ _ _ _ _ _ _ _ L _ _ _ Hg' (Sym _ _ Im6)) as Hg5.
    pose proof (la_good _ _ _ _ _ _ _ _ L _ _ _ Hg5 (Sym _ _ Im5)) as Hg4.
    specialize (EF Hg4). specialize (Ev' Hg5).
    assert (Im46 : same_images (edge_vectors f) (yAtoms y) pos4 pos6) by (eapply same_trans; eassumption).
    split.
    - split; cbn [hB hS mPos mFrc mX]; rewrite ?(set_len _ _ f Hb); [done|by apply nph_lengths_shape in Hl|done|done|].
      intros a Ha. rewrite EF by done. symmetry. by apply (la_force _ _ _ _ _ _ _ _ L).
    - exists eta, h. split; [done|]. split; [done|]. split.
      + rewrite (pressure_stress y _ f _ _ Hbf), Ev'. by rewrite (la_vir _ _ _ _ _ _ _ _ L _ _ _ Hg5 Im6).
      + intros a Ha. destruct (Im0 a Ha) as [k Ek]. destruct (same_trans _ _ _ _ _ (same_trans _ _ _ _ _ Im3 Im4) Im46 a Ha) as [m Em].
        destruct (proj1 (H1 a) Ha) as [E1 E2]. exists k, m. rewrite Em, E2, Ek. split; [done|].
        rewrite (integrate2_spec y F vel2 (la_nodup _ _ _ _ _ _ _ _ L)), decide_True by done. by rewrite E1.
  Qed.

  Lemma nph_step_sound s s' : ready s -> True -> nph_within good s' -> step s = Ok s' -> ready s'.
  Proof using L. intros H1 _ H2 H3. by apply (nph_step_spec s s'). Qed.
  Lemma nph_step_back s s' t t' : ready s -> True -> ready s' -> step s = Ok s' -> ready t -> True -> nph_within good t' -> nph_opposite y s' t ->
    step t = Ok t' -> nph_opposite y s t'.
  Proof using L.
    intros Hs _ Hs' H Ht _ Hw (Ol & Oe & Op & Ov) H'.
    assert (Hw' : nph_within good s') by (split; [apply (box_of_facts _ _ (nr_box _ _ _ _ _ _ Hs'))|apply (nr_good _ _ _ _ _ _ Hs')]).
    destruct (nph_step_spec s s' Hs Hw' H) as (_ & eta & h & Ee & El & Ee' & E).
    destruct (nph_step_spec t t' Ht Hw H') as (Ht' & eta' & h' & Fe & Fl & Fe' & F).
    rewrite Ol in *. set (l := oLen (hB s)) in *. set (f := oLen (hB s')) in *.
    assert (Hpl : positive3 l) by apply (box_of_facts _ _ (nr_box _ _ _ _ _ _ Hs)). assert (Hpf : positive3 f) by apply (box_of_facts _ _ (nr_box _ _ _ _ _ _ Hs')).
    assert (Hl0 : forall i, (i < 3)%nat -> vget l i <> 0).
    { intros i Hi. destruct Hpl as (? & ? & ?). destruct i as [|[|[|i]]]; [..|lia]; cbn [vget]; lra. }
    assert (Hf0 : forall i, (i < 3)%nat -> vget f i <> 0).
    { intros i Hi. destruct Hpf as (? & ? & ?). destruct i as [|[|[|i]]]; [..|lia]; cbn [vget]; lra. }
    assert (Eta : eta' = vscale (-1) eta).
    { rewrite Fe, Oe, Ee'. rewrite (la_vir _ _ _ _ _ _ _ _ L f _ _ (nr_good _ _ _ _ _ _ Hs') Op).
      rewrite !(pressure_ext y _ _ (mVel (hS s')) (mVel (hS t))) by done. apply nph_eta_back. }
    rewrite Eta in Fl. rewrite (nph_lengths_back _ _ _ _ _ _ _ Hpl (nr_shape _ _ _ _ _ _ Hs) El) in Fl. injection Fl as <- El'.
    rewrite <- El' in *. 
    assert (Ff : forall a, a ∈ yAtoms y -> mFrc (hS t) a = mFrc (hS s') a).
    { intros a Ha. rewrite (nr_force _ _ _ _ _ _ Ht), (nr_force _ _ _ _ _ _ Hs') by done. rewrite Ol.
      by apply (la_force _ _ _ _ _ _ _ _ L); [apply (nr_good _ _ _ _ _ _ Hs')|..]. }
    set (v := fun a => vadd (mVel (hS s) a) (vscale (prefactor y a) (mFrc (hS s) a))) in *.
    assert (Hv : forall a, a ∈ yAtoms y -> vadd (mVel (hS t) a) (vscale (prefactor y a) (mFrc (hS t) a)) = vscale (-1) (vdiv (v a) (nph_fac l f))).
    { intros a Ha. rewrite Ff, (Ov a Ha) by done. destruct (E a Ha) as (k & m & _ & E2). rewrite E2.
      apply vget_ext. intros i Hi. rewrite !vget_add, !vget_scale, !vget_add, !vget_scale. unfold v. ring. }
    assert (Im : same_images (edge_vectors l) (yAtoms y) (mPos (hS s)) (mPos (hS t'))).
    { intros a Ha. destruct (E a Ha) as (k & m & E1 & _). destruct (F a Ha) as (k' & m' & F1 & _). destruct (Op a Ha) as [j Ej].
      exists (V3 (vx k + vx m + vx j + vx k' + vx m') (vy k + vy m + vy j + vy k' + vy m') (vz k + vz m + vz j + vz k' + vz m'))%Z.
      rewrite F1, (Hv a Ha), Ej, E1. apply vget_ext. intros i Hi. specialize (Hl0 i Hi). specialize (Hf0 i Hi).
      unfold v, nph_fac2, nph_fac. cbv zeta.
      repeat (rewrite vget_add || rewrite vget_scale || (rewrite vget_mul by done) || (rewrite vget_div by done) || (rewrite edge_lattice by done)).
      destruct i as [|[|[|i]]]; [..|lia]; cbn [vget vx vy vz] in *; rewrite !plus_IZR; unfold Rdiv; generalize (/ vx h) (/ vy h) (/ vz h); intros; field; done. }
    split; [done|]. split; [|split; [done|]].
    - assert (HV : forall a, a ∈ yAtoms y -> mVel (hS t') a = vscale (-1) (mVel (hS s) a)).
      { intros a Ha. destruct (F a Ha) as (k & m & _ & F2). rewrite F2, (Hv a Ha). rewrite (nr_force _ _ _ _ _ _ Ht') by done. rewrite <- El'.
        rewrite (la_force _ _ _ _ _ _ _ _ L l (mPos (hS s))); [|apply (nr_good _ _ _ _ _ _ Hs)|done|done].
        replace (Force l (mPos (hS s)) a) with (mFrc (hS s) a) by (by apply (nr_force _ _ _ _ _ _ Hs)).
        apply vget_ext. intros i Hi. specialize (Hl0 i Hi). specialize (Hf0 i Hi).
        rewrite !vget_add, !vget_div, !vget_scale by done. unfold v, nph_fac. rewrite !vget_div by done. rewrite !vget_add, !vget_scale.
        field. done. }
      rewrite Fe'. rewrite (la_vir _ _ _ _ _ _ _ _ L l _ _ (nr_good _ _ _ _ _ _ Hs) Im).
      rewrite !(pressure_ext y _ _ (mVel (hS s)) (mVel (hS t'))) by done. rewrite Eta, Ee. apply nph_eta_back.
    - intros a Ha. destruct (F a Ha) as (k & m & _ & F2). rewrite F2, (Hv a Ha). rewrite (nr_force _ _ _ _ _ _ Ht') by done. rewrite <- El'.
      rewrite (la_force _ _ _ _ _ _ _ _ L l (mPos (hS s))); [|apply (nr_good _ _ _ _ _ _ Hs)|done|done].
      replace (Force l (mPos (hS s)) a) with (mFrc (hS s) a) by (by apply (nr_force _ _ _ _ _ _ Hs)).
      apply vget_ext. intros i Hi. specialize (Hl0 i Hi). specialize (Hf0 i Hi).
      rewrite !vget_add, !vget_div, !vget_scale by done. unfold v, nph_fac. rewrite !vget_div by done. rewrite !vget_add, !vget_scale.
      field. done.
  Qed.

  Lemma nph_run_S n s : run (S n) s = obind (step s) (run n).
  Proof. done. Qed.
  Definition nph_tame (n : nat) (s : nphs X) : Prop := forall k t, (k <= n)%nat -> run k s = Ok t -> nph_within good t.
  Lemma nph_run_back n s s' t : ready s -> nph_tame n s -> run n s = Ok s' ->
    nph_tame n (nph_reversed s') -> run n (nph_reversed s') = Ok t -> nph_opposite y s t.
  Proof using L.
    intros Hs Ht Hr Htb Hb.
    assert (Hs' : ready s').
    { apply (gen_run_sound step run (fun s => eq_refl) nph_run_S ready (nph_within good) (fun _ => True) nph_step_sound n s); [done| |done].
      intros k u Hk Hu. split; [done|by apply (Ht k)]. }
    destruct (gen_run_back step run (fun s => eq_refl) nph_run_S ready (nph_within good) (fun _ => True) (nph_opposite y)
      nph_step_sound nph_step_back n s s' (nph_reversed s') t) as [H _]; try done.
    - intros k u Hk Hu. split; [done|by apply (Ht k)].
    - split; [done|]. split; [done|]. split; [apply same_refl|done].
    - destruct Hs'. by split.
    - intros k u Hk Hu. split; [done|by apply (Htb k)].
  Qed.
End Steps.
