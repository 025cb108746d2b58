(** Proofs about exchangeGhosts: the copies of one atom. *)
From Verif Require Import Base Containers Vec3 PlanModel DomainModel DomainSpec DomainProofs DomainProps SpeciesModel SpeciesProofs SimProofs DistSpec ExchModel ExchSpec ExchProofs ExchAtoms ExchElem ExchStart ExchGhost.
From Coq Require Import Reals Lra.
Local Open Scope nat_scope.

Lemma NoDup_flat_key {A B C K} (f : A -> list B) (kx : A -> K) (ky : B -> K) (g : B -> C) l :
  NoDup (map kx l) -> (forall x v, x ∈ l -> v ∈ f x -> ky v = kx x) -> (forall x, x ∈ l -> NoDup (map g (f x))) ->
  NoDup (map (fun v => (ky v, g v)) (flat_map f l)).
Proof.
  induction l as [|x l IH]; intros Hn Hk Hg; cbn [flat_map map]; [constructor|]. cbn [map] in Hn. apply NoDup_cons in Hn as [Hx Hn]. rewrite map_app. apply NoDup_app. split; [|split].
  - specialize (Hg x ltac:(by left)). revert Hg. induction (f x) as [|v k IHk]; [constructor|]. cbn [map]. intros Hg. apply NoDup_cons in Hg as [H1 H2]. constructor; [|by apply IHk].
    intros H. apply H1. apply elem_of_map in H as (w & E & Hw). apply elem_of_map. exists w. split; [by injection E|done].
  - intros kv H1 H2. apply elem_of_map in H1 as (v & E & Hv). apply elem_of_map in H2 as (w & E' & Hw). apply elem_of_flat_map in Hw as (z & Hz & Hw).
    apply Hx. apply elem_of_map. exists z. split; [|done]. rewrite <- (Hk x v) by (try done; by left). rewrite <- (Hk z w) by (try done; by right). congruence.
  - apply IH; [done| |].
    + intros z v Hz. apply Hk. by right.
    + intros z Hz. apply Hg. by right.
Qed.

Section copies.
  Context (dims : vec3 Z) (Hd : grid_ok dims).
  Notation n := (n_proc dims).
  Notation dd i := (IZR (vget dims i)).
  Local Open Scope R_scope.
  Notation yv i u := (yy dims i u.1 (xPos u.2)).

  (** Same atom at the same place up to whole periods, as a ghost. *)
  Definition image_of (a b : xatom) : Prop := xId b = xId a /\ xType b = xType a /\ exists k, xPos b = translate (xPos a) k.
  Lemma image_refl a : image_of a a.
  Proof. repeat split. exists (V3 0 0 0)%Z. by rewrite translate_0. Qed.
  Lemma image_trans a b c : image_of a b -> image_of b c -> image_of a c.
  Proof. intros (?&?&k&E) (?&?&l&E'). repeat split; try congruence. rewrite E', E, translate_translate. eauto. Qed.

  (** [v] is the copy of [u] displaced by [e] processors along axis [i]. *)
  Record moved (i : nat) (e : Z) (u v : nat * xatom) : Prop := {
    md_rank : (v.1 < n)%nat;
    md_image : image_of u.2 v.2;
    md_axis : yv i v = yv i u - IZR e;
    md_other : forall k, (k < 3)%nat -> i <> k -> yv k v = yv k u;
    md_flags : forall k b, (k < 3)%nat -> i <> k -> (b < 2)%nat -> gh k b v.2 = gh k b u.2 }.
  Lemma moved_0 i u : (u.1 < n)%nat -> moved i 0 u u.
  Proof. intros H. split; [done|apply image_refl|lra|done|done]. Qed.
  Lemma moved_g i j u : (i < 3)%nat -> (j < 2)%nat -> (u.1 < n)%nat -> moved i (step_of j) u (gmv dims i j u).
  Proof.
    intros Hi Hj Hu. unfold gmv, gcopy. split; cbn [fst snd xPos xId xType xPlan].
    - by apply dst_lt.
    - repeat split. by apply shift_translate.
    - by apply yy_dst.
    - intros k Hk Hn. by apply yy_dst_ne.
    - intros k b Hk Hn Hb. unfold gh. cbn [xPlan]. destruct (flg dims i), j; try done. apply gh_clearG; try done; lia.
  Qed.
  Definition allowed (i : nat) (e : Z) (u : nat * xatom) : Prop := e = 0%Z \/ (e = -1 /\ gh i 0 u.2 = true)%Z \/ (e = 1 /\ gh i 1 u.2 = true)%Z.
  Lemma cop_in i e u : (i < 3)%nat -> (u.1 < n)%nat -> allowed i e u -> exists v, v ∈ cop dims i u /\ moved i e u v.
  Proof.
    intros Hi Hu [->|[[-> Hg]|[-> Hg]]]; unfold cop.
    - exists u. split; [by left|by apply moved_0].
    - exists (gmv dims i 0 u). split; [|by apply (moved_g i 0); [done|lia|done]]. right. rewrite Hg. by left.
    - exists (gmv dims i 1 u). split; [|by apply (moved_g i 1); [done|lia|done]]. right. rewrite Hg. apply elem_of_app. right. by left.
  Qed.
  Lemma cop_inv i u v : (i < 3)%nat -> (u.1 < n)%nat -> v ∈ cop dims i u -> exists e, allowed i e u /\ moved i e u v.
  Proof.
    intros Hi Hu Hv. unfold cop in Hv. apply elem_of_cons in Hv as [->|Hv]; [exists 0%Z; split; [by left|by apply moved_0]|].
    apply elem_of_app in Hv as [Hv|Hv].
    - destruct (gh i 0 u.2) eqn:E; [|by apply elem_of_nil in Hv]. apply elem_of_list_singleton in Hv as ->. exists (-1)%Z. split; [right; left; done|by apply (moved_g i 0); [done|lia|done]].
    - destruct (gh i 1 u.2) eqn:E; [|by apply elem_of_nil in Hv]. apply elem_of_list_singleton in Hv as ->. exists 1%Z. split; [right; right; done|by apply (moved_g i 1); [done|lia|done]].
  Qed.
  Lemma cop_nodup i u : (i < 3)%nat -> (u.1 < n)%nat -> NoDup (map (fun v => yv i v) (cop dims i u)).
  Proof.
    intros Hi Hu. unfold cop. cbn [map]. pose proof (md_axis _ _ _ _ (moved_g i 0 u Hi ltac:(lia) Hu)) as E0. pose proof (md_axis _ _ _ _ (moved_g i 1 u Hi ltac:(lia) Hu)) as E1. cbn [step_of] in E0, E1.
    destruct (gh i 0 u.2), (gh i 1 u.2); cbn [opt app map]; repeat constructor; rewrite ?elem_of_cons, ?elem_of_nil; rewrite ?E0, ?E1; intuition lra.
  Qed.

  (** All axes. *)
  Record moved3 (e : vec3 Z) (u v : nat * xatom) : Prop := {
    m3_rank : (v.1 < n)%nat;
    m3_image : image_of u.2 v.2;
    m3_axis : forall i, (i < 3)%nat -> yv i v = yv i u - IZR (vget e i) }.
  Lemma allowed_other i k e e' u v : moved i e u v -> (k < 3)%nat -> i <> k -> allowed k e' v <-> allowed k e' u.
  Proof. intros [_ _ _ _ H] Hk Hn. unfold allowed. rewrite !H by (done || lia). done. Qed.
  Lemma copies_in e u : (u.1 < n)%nat -> (forall i, (i < 3)%nat -> allowed i (vget e i) u) -> exists v, v ∈ copies dims u /\ moved3 e u v.
  Proof.
    intros Hu He. destruct (cop_in 0 (vget e 0) u) as (v0 & V0 & M0); [lia|done|apply He; lia|].
    destruct (cop_in 1 (vget e 1) v0) as (v1 & V1 & M1); [lia|apply M0|apply (allowed_other _ _ _ _ _ _ M0); [lia|lia|apply He; lia]|].
    destruct (cop_in 2 (vget e 2) v1) as (v2 & V2 & M2); [lia|apply M1| |].
    { apply (allowed_other _ _ _ _ _ _ M1); [lia|lia|]. apply (allowed_other _ _ _ _ _ _ M0); [lia|lia|apply He; lia]. }
    exists v2. split.
    - unfold copies. apply elem_of_flat_map. exists v1. split; [|done]. apply elem_of_flat_map. exists v0. done.
    - destruct M0 as [R0 I0 A0 O0 _], M1 as [R1 I1 A1 O1 _], M2 as [R2 I2 A2 O2 _]. split; [done|eapply image_trans; [done|]; by eapply image_trans|].
      intros i Hi. destruct i as [|[|[|]]]; [| | |lia].
      + rewrite O2, O1, A0 by lia. done.
      + rewrite O2, A1, O0 by lia. done.
      + rewrite A2, O1, O0 by lia. done.
  Qed.
  Lemma copies_inv u v : (u.1 < n)%nat -> v ∈ copies dims u -> exists e, (forall i, (i < 3)%nat -> allowed i (vget e i) u) /\ moved3 e u v.
  Proof.
    intros Hu Hv. unfold copies in Hv. apply elem_of_flat_map in Hv as (v1 & V1 & V2). apply elem_of_flat_map in V1 as (v0 & V0 & V1).
    destruct (cop_inv 0 u v0 ltac:(lia) Hu V0) as (e0 & E0 & M0). destruct (cop_inv 1 v0 v1 ltac:(lia) ltac:(apply M0) V1) as (e1 & E1 & M1).
    destruct (cop_inv 2 v1 v ltac:(lia) ltac:(apply M1) V2) as (e2 & E2 & M2). exists (V3 e0 e1 e2). split.
    - intros i Hi. destruct i as [|[|[|]]]; [| | |lia]; cbn [vget vx vy vz].
      + done.
      + by apply (allowed_other _ _ _ _ _ _ M0); [lia|lia|].
      + apply (allowed_other _ _ _ _ _ _ M0); [lia|lia|]. by apply (allowed_other _ _ _ _ _ _ M1); [lia|lia|].
    - destruct M0 as [R0 I0 A0 O0 _], M1 as [R1 I1 A1 O1 _], M2 as [R2 I2 A2 O2 _]. split; [done|eapply image_trans; [done|]; by eapply image_trans|].
      intros i Hi. destruct i as [|[|[|]]]; [| | |lia]; cbn [vget vx vy vz].
      + rewrite O2, O1, A0 by lia. done.
      + rewrite O2, A1, O0 by lia. done.
      + rewrite A2, O1, O0 by lia. done.
  Qed.
  Lemma copies_keys u : (u.1 < n)%nat -> NoDup (map (fun v => ((yv 0 v, yv 1 v), yv 2 v)) (copies dims u)).
  Proof.
    intros Hu. unfold copies.
    assert (H0 : forall v, v ∈ cop dims 0 u -> (v.1 < n)%nat). { intros v Hv. destruct (cop_inv 0 u v ltac:(lia) Hu Hv) as (e & _ & M). apply M. }
    assert (H1 : forall v, v ∈ flat_map (cop dims 1) (cop dims 0 u) -> (v.1 < n)%nat).
    { intros v Hv. apply elem_of_flat_map in Hv as (w & Hw & Hv). destruct (cop_inv 1 w v ltac:(lia) (H0 w Hw) Hv) as (e & _ & M). apply M. }
    apply (NoDup_flat_key (cop dims 2) (fun v => (yv 0 v, yv 1 v)) (fun v => (yv 0 v, yv 1 v)) (fun v => yv 2 v)).
    - apply (NoDup_flat_key (cop dims 1) (fun v => yv 0 v) (fun v => yv 0 v) (fun v => yv 1 v)).
      + apply cop_nodup; [lia|done].
      + intros x v Hx Hv. destruct (cop_inv 1 x v ltac:(lia) (H0 x Hx) Hv) as (e & _ & M). apply (md_other _ _ _ _ M); lia.
      + intros x Hx. apply cop_nodup; [lia|by apply H0].
    - intros x v Hx Hv. destruct (cop_inv 2 x v ltac:(lia) (H1 x Hx) Hv) as (e & _ & M). pose proof (md_other _ _ _ _ M). f_equal; apply H; lia.
    - intros x Hx. apply cop_nodup; [lia|by apply H1].
  Qed.

  (** Rank and position are determined by the relative position. *)
  Lemma vget_translate x k i : (i < 3)%nat -> vget (translate x k) i = vget x i + IZR (vget k i).
  Proof. intros Hi. destruct i as [|[|[|]]]; [| | |lia]; done. Qed.
  Lemma yy_translate i r x k : (i < 3)%nat -> yy dims i r (translate x k) = vget x i * dd i + IZR (vget k i * vget dims i - vget (coords dims r) i).
  Proof. intros Hi. unfold yy. rewrite vget_translate by done. rewrite minus_IZR, mult_IZR. lra. Qed.
  Lemma yy_determines x k k' r r' : (r < n)%nat -> (r' < n)%nat -> (forall i, (i < 3)%nat -> yy dims i r (translate x k) = yy dims i r' (translate x k')) -> r = r' /\ k = k'.
  Proof.
    intros Hr Hr' H. assert (E : forall i, (i < 3)%nat -> vget (coords dims r) i = vget (coords dims r') i /\ vget k i = vget k' i).
    { intros i Hi. specialize (H i Hi). rewrite !yy_translate in H by done. apply Rplus_eq_reg_l in H. apply eq_IZR in H.
      pose proof (in_grid_get _ _ i (coords_in dims Hd _ Hr)). pose proof (in_grid_get _ _ i (coords_in dims Hd _ Hr')).
      assert ((vget k i - vget k' i) * vget dims i = vget (coords dims r) i - vget (coords dims r') i)%Z as E by lia.
      assert (vget k i - vget k' i = 0)%Z by nia. lia. }
    split.
    - apply (coords_inj dims Hd); [done|done|]. apply vec3_ext. intros i Hi. by apply E.
    - apply vec3_ext. intros i Hi. by apply E.
  Qed.

  (** The copies of an atom inside its domain are its images near the other domains. *)
  Lemma copies_iff (w : nat -> R) u : (u.1 < n)%nat -> (forall i, (i < 3)%nat -> 0 <= yv i u <= 1 /\ 0 < w i <= 1) ->
    (forall i, (i < 3)%nat -> (gh i 0 u.2 = true <-> yv i u < w i) /\ (gh i 1 u.2 = true <-> 1 - w i < yv i u)) ->
    forall q k, (q < n)%nat ->
    (exists v, v ∈ copies dims u /\ v.1 = q /\ image_of u.2 v.2 /\ xPos v.2 = translate (xPos u.2) k) <-> (forall i, (i < 3)%nat -> - w i < yy dims i q (translate (xPos u.2) k) < 1 + w i).
  Proof.
    intros Hu Hy Hg q k Hq. split.
    - intros (v & Hv & <- & _ & E). destruct (copies_inv u v Hu Hv) as (e & He & [_ _ HA]). intros i Hi. rewrite <- E, HA by done.
      destruct (Hy i Hi) as [Y W]. destruct (Hg i Hi) as [G0 G1]. destruct (He i Hi) as [E0|[[E0 G]|[E0 G]]]; rewrite E0; [lra|apply G0 in G; lra|apply G1 in G; lra].
    - intros HN. set (e := (V3 (vget (coords dims q) 0 - vget (coords dims u.1) 0 - vget k 0 * vget dims 0) (vget (coords dims q) 1 - vget (coords dims u.1) 1 - vget k 1 * vget dims 1) (vget (coords dims q) 2 - vget (coords dims u.1) 2 - vget k 2 * vget dims 2))%Z).
      assert (Ee : forall i, (i < 3)%nat -> (vget e i = vget (coords dims q) i - vget (coords dims u.1) i - vget k i * vget dims i)%Z).
      { intros i Hi. destruct i as [|[|[|]]]; [done|done|done|lia]. }
      assert (EY : forall i, (i < 3)%nat -> yy dims i q (translate (xPos u.2) k) = yv i u - IZR (vget e i)).
      { intros i Hi. rewrite yy_translate, Ee by done. unfold yy. rewrite !minus_IZR, !mult_IZR. lra. }
      destruct (copies_in e u Hu) as (v & Hv & [Rv Iv Av]).
      { intros i Hi. specialize (HN i Hi). rewrite EY in HN by done. destruct (Hy i Hi) as [Y W]. destruct (Hg i Hi) as [G0 G1]. unfold allowed.
        assert (-2 < IZR (vget e i) < 2) as [B1 B2] by lra. apply lt_IZR in B1, B2.
        assert (vget e i = 0 \/ vget e i = -1 \/ vget e i = 1)%Z as [E|[E|E]] by lia; rewrite E in *.
        - by left.
        - right. left. split; [done|]. apply G0. lra.
        - right. right. split; [done|]. apply G1. lra. }
      exists v. split; [done|]. destruct Iv as (I1 & I2 & k' & I3).
      destruct (yy_determines (xPos u.2) k k' q v.1 Hq Rv) as [-> ->].
      { intros i Hi. rewrite EY, <- I3, Av by done. done. }
      split; [done|]. split; [|done]. split; [done|]. split; [done|]. eauto.
  Qed.
  (** No image is made twice. *)
  Lemma copies_once u : (u.1 < n)%nat -> NoDup (map (fun v => (v.1, xPos v.2)) (copies dims u)).
  Proof.
    intros Hu. pose proof (copies_keys u Hu) as H. 
    set (K := fun rx : nat * vec3 R => ((yy dims 0 rx.1 rx.2, yy dims 1 rx.1 rx.2), yy dims 2 rx.1 rx.2)).
    replace (map (fun v => ((yv 0 v, yv 1 v), yv 2 v)) (copies dims u)) with (map K (map (fun v => (v.1, xPos v.2)) (copies dims u))) in H by (by rewrite map_map).
    by apply NoDup_fmap_1 in H.
  Qed.
End copies.
