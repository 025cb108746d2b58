(** Positions followed across faces of the box. *)
From stdpp Require Import relations gmap.
From Verif Require Import Base Vec3 BoxSpec OrthoModel OrthoSpec OrthoProofs OrthoProps SpeciesModel SpeciesProofs.
From Verif Require Import EnergyModel EnergySpec EnergyProofs MdModel MdSpec ClusterModel ClusterSpec ClusterComModel ClusterComSpec ClusterComProofs AnaModel AnaSpec AnaProofs.
From Coq Require Import Reals Lra.
Local Open Scope R_scope.

Lemma shift1_near b r : a_box b -> near_cell b r -> in_box b (shift1 b r) /\ exists n : vec3 Z, forall i, (i < 3)%nat -> vget r i = vget (shift1 b r) i + IZR (vget n i) * vget (oLen b) i.
Proof.
  intros Hb Hr. destruct (OrthoModel.shift b r (V3 0 0 0)%Z) as [r' s'] eqn:E.
  destruct (ortho_shift_wraps b r _ r' s' Hb Hr E) as (H1 & H2 & _ & H4 & _). rewrite H4. split; [done|]. exists s'. intros i Hi. rewrite (H2 i Hi).
  do 3 f_equal. destruct i as [|[|[|]]]; try lia; cbn; lia.
Qed.
Lemma step_axis b old r (s n : Z) w w' c i : a_box b -> in_box b old -> in_box b r -> (i < 3)%nat ->
  Rabs (w' - w) < vget (oLen b) i / 2 ->
  vget old i + IZR s * vget (oLen b) i = w + c -> vget r i + IZR n * vget (oLen b) i = w' + c ->
  vget r i + IZR (s + (sep b r old i).2) * vget (oLen b) i = w' + c.
Proof.
  intros Hb Ho Hr Hi Hw E1 E2. destruct (owf_a_box b Hb) as (l & lat & W). rewrite (sep_eq b l lat) by done. specialize (Ho i Hi). specialize (Hr i Hi).
  rewrite (w_len _ _ _ W) in *. assert (HL : 0 < vget l i) by lra.
  destruct (sep_axis _ _ _ _) as [d t] eqn:E. assert (Hq : Rabs (vget r i - vget old i) <= 3/2 * vget l i) by (unfold Rabs; destruct (Rcase_abs _); lra).
  destruct (sep_axis_spec _ _ _ _ _ HL Hq E) as (A1 & A2 & _).
  cbn [snd]. assert (d = w' - w) as Hd. { apply (half_unique (vget l i) _ _ (t - n + s)%Z); try done. rewrite plus_IZR, minus_IZR. lra. }
  rewrite plus_IZR. lra.
Qed.
Lemma vget_add_shift b r s i : (i < 3)%nat -> vget (add_shift b r s) i = vget r i + IZR (vget s i) * vget (oLen b) i.
Proof. destruct i as [|[|[|]]]; intros; try lia; done. Qed.
Lemma vget_next b t r i : (i < 3)%nat -> vget (next_shift b t r) i = (vget (kShift t) i + (sep b r (kOld t) i).2)%Z.
Proof. destruct i as [|[|[|]]]; intros; try lia; done. Qed.
Lemma track_step b t p w w' c : a_box b -> in_box b (kOld t) -> near_cell b p -> half_about (oLen b) w w' ->
  add_shift b (kOld t) (kShift t) = vadd w c -> (exists n : vec3 Z, forall i, (i < 3)%nat -> vget p i + IZR (vget n i) * vget (oLen b) i = vget w' i + vget c i) ->
  let r := shift1 b p in in_box b r /\ add_shift b r (next_shift b t r) = vadd w' c.
Proof.
  intros Hb Ho Hp Hw E (n & En) r. destruct (shift1_near b p Hb Hp) as (Hr & m & Em). split; [done|].
  apply vec3_ext. intros i Hi. rewrite vget_add_shift, vget_next, vget_vadd by done.
  assert (E' : vget (add_shift b (kOld t) (kShift t)) i = vget (vadd w c) i) by (by rewrite E). rewrite vget_add_shift, vget_vadd in E' by done.
  specialize (Hw i Hi). rewrite vget_vsub in Hw. apply (step_axis b _ _ _ (vget n i + vget m i)%Z (vget w i)); try done. fold r in Em. specialize (En i Hi). rewrite (Em i Hi) in En.
  rewrite plus_IZR. lra.
Qed.

(** moleculeCom: the last atom is missing. *)
Lemma fold_com_gen (f : nat -> vec3 R) : forall l s, fold_left (fun s p => vadd s (snd p)) (map (fun x : nat => (x, f x)) l) s = vadd s (vsum_over l f).
Proof.
  induction l as [|a l IH]; intros s; cbn [map fold_left snd].
  - destruct s as [s1 s2 s3]. unfold vsum_over, sum_over, vadd. cbn. f_equal; lra.
  - rewrite IH. unfold vsum_over, sum_over, vadd. cbn [map Rsum vx vy vz]. f_equal; ring.
Qed.
Lemma contiguous_take b pos u : forall k a mol, contiguous b pos u (a :: mol) -> contiguous b pos u (a :: take k mol).
Proof.
  intros k a mol [H1 H2]. split.
  - intros x Hx. apply H1. apply elem_of_cons in Hx as [->|Hx]; [left|]. right. apply elem_of_take in Hx as (i & Hx & _). by eapply elem_of_list_lookup_2.
  - clear H1. revert k a H2. induction mol as [|a' mol IH]; intros k a H2; destruct k as [|k]; cbn [take]; try done. destruct H2 as [H2 H3]. split; [done|]. by apply IH.
Qed.
Lemma com_shape b pos u n a mol r : a_box b -> contiguous b pos u (a :: mol) -> length (a :: mol) = n -> (2 <= n)%nat ->
  moleculeCom (fun r1 r2 => (distanceSq_dr b r1 r2).2) pos n (a :: mol) r =
  Ok (vadd (vscale (1 - / INR n) r) (vscale (/ INR n) (vsum_over (take (n - 2) mol) (fun x => vsub (u x) (u a))))).
Proof.
  intros Hb HC Hl Hn. unfold moleculeCom. cbv zeta. rewrite (fore_spec b Hb pos u) by (by apply contiguous_take). rewrite fold_com_gen. f_equal.
  assert (Hlen : INR (length (take (n - 2) mol)) = INR n - 2).
  { cbn [length] in Hl. rewrite take_length. rewrite Nat.min_l by lia. rewrite minus_INR by lia. done. }
  assert (HnR : 0 < INR n) by (apply lt_0_INR; lia). revert Hlen. generalize (take (n - 2) mol) as l. intros l Hlen.
  assert (E : forall (g : nat -> R) c, sum_over l (fun x => c + g x) = INR (length l) * c + sum_over l g).
  { clear. intros g c. induction l as [|x l IH]; unfold sum_over in *; cbn [map Rsum length]; [cbn; lra|]. rewrite S_INR, IH. lra. }
  unfold vsum_over, vadd, vsub, vscale. cbn [vx vy vz]. rewrite !E, Hlen. f_equal; field; lra.
Qed.
