(** Loops over clusters and the minimum image about a point. *)
From stdpp Require Import relations gmap.
From Verif Require Import Base Vec3 BoxSpec OrthoModel OrthoSpec OrthoProofs OrthoProps SpeciesModel SpeciesProofs.
From Verif Require Import EnergyModel EnergySpec EnergyProofs MdModel MdSpec ClusterModel ClusterSpec ClusterComModel ClusterComSpec.
From Coq Require Import Reals Lra.
Local Open Scope R_scope.

Lemma over_atoms_ok atomsOf ofType {S} (body : S -> nat -> S) links : forall L p fuel s, linked links p L ->
  (forall m l, m ∈ L -> links !! m = Some l -> lMol l = Some m) -> (length L < fuel)%nat ->
  over_atoms atomsOf ofType body fuel p links s = Ok (fold_left body (members atomsOf ofType L) s).
Proof.
  induction L as [|m L IH]; intros p fuel s HL Hm Hf; inversion HL as [|i l tl H1 H2]; subst; (destruct fuel as [|f]; [cbn in Hf; lia|]); cbn [over_atoms].
  - done.
  - unfold aget. rewrite H1. cbn [obind]. rewrite (Hm m l ltac:(left) H1). rewrite IH; [|done|intros; apply Hm; [by right|done]|cbn in Hf; lia].
    f_equal. unfold members. cbn [flat_map]. rewrite List.filter_app, fold_left_app. f_equal. generalize (atomsOf m). clear. intros as_. revert s.
    induction as_ as [|a as_ IH]; intros s; cbn [List.filter fold_left]; [done|]. destruct (ofType a); cbn [fold_left]; apply IH.
Qed.
Lemma fold_com (f : nat -> vec3 R) : forall A v n, fold_left (fun (s : vec3 R * Z) a => (vadd (fst s) (f a), (snd s + 1)%Z)) A (v, n) = (vadd v (vsum_over A f), (n + Z.of_nat (length A))%Z).
Proof.
  induction A as [|a A IH]; intros v n; cbn [fold_left fst snd].
  - f_equal; [|cbn; lia]. destruct v. unfold vadd, vsum_over, sum_over. cbn. f_equal; lra.
  - rewrite IH. f_equal; [|cbn [length]; lia]. destruct v. unfold vadd, vsum_over, sum_over. cbn. f_equal; lra.
Qed.
Definition tsum {A} (l : list A) (f : A -> vec3 (vec3 R)) : vec3 (vec3 R) :=
  V3 (vsum_over l (fun x => vx (f x))) (vsum_over l (fun x => vy (f x))) (vsum_over l (fun x => vz (f x))).
Lemma fold_moment (f : nat -> vec3 (vec3 R)) : forall A v n, fold_left (fun (s : vec3 (vec3 R) * Z) a => (tadd (fst s) (f a), (snd s + 1)%Z)) A (v, n) = (tadd v (tsum A f), (n + Z.of_nat (length A))%Z).
Proof.
  induction A as [|a A IH]; intros v n; cbn [fold_left fst snd].
  - f_equal; [|cbn; lia]. destruct v as [[] [] []]. unfold tadd, tsum, vadd, vsum_over, sum_over. cbn. f_equal; f_equal; lra.
  - rewrite IH. f_equal; [|cbn [length]; lia]. destruct v as [[] [] []]. unfold tadd, tsum, vadd, vsum_over, sum_over. cbn. f_equal; f_equal; lra.
Qed.

(** The image less than half an edge from a point is unique. *)
Lemma half_unique L d d' (n : Z) : 0 < L -> Rabs d <= L / 2 -> Rabs d' < L / 2 -> d = d' + IZR n * L -> d = d'.
Proof.
  intros HL H1 H2 E. assert (n = 0)%Z as ->; [|lra].
  assert (- (L / 2) <= d <= L / 2) by (revert H1; unfold Rabs; destruct (Rcase_abs d); lra). apply Rabs_def2 in H2.
  assert (- L < IZR n * L < L) as [A B] by lra.
  assert (-1 < IZR n) by (apply (Rmult_lt_reg_r L); lra). assert (IZR n < 1) by (apply (Rmult_lt_reg_r L); lra).
  assert (-1 < n)%Z by (apply lt_IZR; lra). assert (n < 1)%Z by (apply lt_IZR; lra). lia.
Qed.
Lemma lattice_get b l lat v n i : owf b l lat -> (i < 3)%nat -> vget (vadd v (lattice_vector (oBrav b) n)) i = vget v i + IZR (vget n i) * vget l i.
Proof. intros W Hi. rewrite (w_brav _ _ _ W). rewrite <- lattice_diag by done. destruct v. destruct i as [|[|[|]]]; try lia; done. Qed.
Lemma vget_vsub u v i : vget (vsub u v) i = vget u i - vget v i.
Proof. destruct u, v, i as [|[|[|]]]; cbn; try lra; done. Qed.
Lemma vget_vadd u v i : vget (vadd u v) i = vget u i + vget v i.
Proof. destruct u, v, i as [|[|[|]]]; cbn; try lra; done. Qed.

(** dr of distanceSq is the separation of the images r of p and o of q if these are less than half an edge apart. *)
Lemma sep_images b p q r o n k : a_box b -> (forall i, (i < 3)%nat -> Rabs (vget p i - vget q i) <= 3/2 * vget (oLen b) i) ->
  r = vadd p (lattice_vector (oBrav b) n) -> o = vadd q (lattice_vector (oBrav b) k) -> half_about (oLen b) o r ->
  (distanceSq_dr b p q).2 = vsub r o.
Proof.
  intros Hb Hr -> -> Hh. destruct (owf_a_box b Hb) as (l & lat & W). rewrite (w_len _ _ _ W) in *.
  apply vec3_ext. intros i Hi. assert (Ei : vget (distanceSq_dr b p q).2 i = (sep b p q i).1).
  { unfold distanceSq_dr. cbn [snd]. destruct i as [|[|[|]]]; try lia; done. }
  rewrite Ei, (sep_eq b l lat _ _ _ W Hi). specialize (Hr i Hi). specialize (Hh i Hi).
  pose proof (pos3_get l i (w_pos _ _ _ W)) as HL.
  destruct (sep_axis _ _ _ _) as [d t] eqn:E. destruct (sep_axis_spec _ _ _ _ _ HL Hr E) as (E1 & E2 & _). cbn [fst].
  rewrite vget_vsub, !(lattice_get b l lat _ _ _ W Hi) in *.
  apply (half_unique (vget l i) _ _ (t - vget n i + vget k i)%Z); try done. rewrite plus_IZR, minus_IZR. lra.
Qed.

(** The mean of numbers of size less than c is of size less than c. *)
Lemma mean_bound (A : list nat) (f : nat -> R) c : A <> [] -> (forall a, a ∈ A -> Rabs (f a) < c) -> Rabs (/ INR (length A) * sum_over A f) < c.
Proof.
  intros Hne Hf. assert (G : forall B, B <> [] -> (forall a, a ∈ B -> Rabs (f a) < c) -> Rabs (sum_over B f) < INR (length B) * c).
  { induction B as [|a B IH]; intros Hn HB; [done|]. unfold sum_over in *. cbn [map Rsum length]. rewrite S_INR.
    pose proof (HB a ltac:(left)) as Ha. destruct B as [|a' B]; [cbn; rewrite Rplus_0_r; lra|].
    specialize (IH ltac:(done) (fun x Hx => HB x ltac:(by right))). eapply Rle_lt_trans; [apply Rabs_triang|]. lra. }
  specialize (G A Hne Hf). assert (0 < INR (length A)) as Hp by (apply lt_0_INR; destruct A; [done|cbn; lia]).
  rewrite Rabs_mult, (Rabs_right (/ _)) by (apply Rle_ge; left; by apply Rinv_0_lt_compat).
  apply (Rmult_lt_reg_l (INR (length A))); [done|]. rewrite <- Rmult_assoc, Rinv_r, Rmult_1_l by lra. done.
Qed.
Lemma sum_minus_const (A : list nat) (f : nat -> R) x : sum_over A (fun a => f a - x) = sum_over A f - INR (length A) * x.
Proof. unfold sum_over. induction A as [|a A IH]; cbn [map Rsum]; [cbn; lra|]. rewrite IH. cbn [length]. rewrite S_INR. lra. Qed.
Lemma sum_in_ext (A : list nat) (f g : nat -> R) : (forall a, a ∈ A -> f a = g a) -> sum_over A f = sum_over A g.
Proof. unfold sum_over. induction A as [|a A IH]; intros H; cbn [map Rsum]; [done|]. rewrite (H a ltac:(left)), IH; [done|]. intros x Hx. apply H. by right. Qed.
Lemma vget_vsum (A : list nat) f i : (i < 3)%nat -> vget (vsum_over A f) i = sum_over A (fun a => vget (f a) i).
Proof. intros Hi. destruct i as [|[|[|]]]; try lia; done. Qed.
Lemma vget_vscale c u i : vget (vscale c u) i = c * vget u i.
Proof. destruct u, i as [|[|[|]]]; done. Qed.
Lemma linked_bound links p L m : linked links p L -> m ∈ L -> (m < length links)%nat.
Proof. induction 1 as [|i l tl H1 H2 IH]; intros Hm; [by apply elem_of_nil in Hm|]. apply elem_of_cons in Hm as [->|Hm]; [by eapply lookup_lt_Some|auto]. Qed.
Lemma linked_length links p L : linked links p L -> NoDup L -> (length L <= length links)%nat.
Proof.
  intros HL Hnd. rewrite <- (seq_length (length links) 0). apply NoDup_incl_length; [by apply NoDup_ListNoDup|].
  intros m Hm. apply in_seq. apply elem_of_list_In in Hm. pose proof (linked_bound _ _ _ _ HL Hm). lia.
Qed.
