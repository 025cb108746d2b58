(** Walks along molecules. *)
From stdpp Require Import relations gmap.
From Verif Require Import Base Vec3 BoxSpec OrthoModel OrthoSpec OrthoProofs OrthoProps SpeciesModel SpeciesProofs.
From Verif Require Import EnergyModel EnergySpec EnergyProofs MdModel MdSpec ClusterModel ClusterSpec ClusterComModel ClusterComSpec ClusterComProofs AnaModel AnaSpec.
From Coq Require Import Reals Lra.
Local Open Scope R_scope.

Lemma half_sym l o r : half_about l o r -> half_about l r o.
Proof. intros H i Hi. specialize (H i Hi). rewrite vget_vsub in *. by rewrite Rabs_minus_sym. Qed.
Lemma contiguous_tail b pos u a mol : contiguous b pos u (a :: mol) -> contiguous b pos u mol.
Proof. intros [H1 H2]. split; [intros x Hx; apply H1; by right|]. destruct mol; [done|]. apply H2. Qed.

Section Box.
  Context (b : ortho) (Hb : a_box b) (pos u : nat -> vec3 R).
  Local Notation sepn := (fun r1 r2 => (distanceSq_dr b r1 r2).2).
  Lemma chain_sep a a' mol : contiguous b pos u (a :: a' :: mol) ->
    sepn (pos a) (pos a') = vsub (u a) (u a') /\ sepn (pos a') (pos a) = vsub (u a') (u a).
  Proof using Hb.
    intros [H1 [[H2 H3] _]]. destruct (H1 a ltac:(left)) as (n & En), (H1 a' ltac:(right; left)) as (k & Ek). split.
    - apply (sep_images b _ _ _ _ n k); try done. by apply half_sym.
    - apply (sep_images b _ _ _ _ k n); try done. intros i Hi. rewrite Rabs_minus_sym. by apply H3.
  Qed.
  Lemma back_spec : forall mol a cur, contiguous b pos u (a :: mol) ->
    walk pos sepn cur a mol = map (fun x => (x, vsub cur (vsub (u x) (u a)))) mol.
  Proof using Hb.
    induction mol as [|a' mol IH]; intros a cur H; cbn [walk map]; [done|]. destruct (chain_sep a a' mol H) as [E _]. rewrite E.
    assert (E' : vadd cur (vsub (u a) (u a')) = vsub cur (vsub (u a') (u a))) by (unfold vadd, vsub; cbn [vx vy vz]; f_equal; ring).
    rewrite E'. f_equal. rewrite IH by (by eapply contiguous_tail). apply map_ext. intros x. f_equal. unfold vadd, vsub; cbn [vx vy vz]; f_equal; ring.
  Qed.
  Lemma fore_spec : forall mol a cur, contiguous b pos u (a :: mol) ->
    walk pos (fun r1 r2 => sepn r2 r1) cur a mol = map (fun x => (x, vadd cur (vsub (u x) (u a)))) mol.
  Proof using Hb.
    induction mol as [|a' mol IH]; intros a cur H; cbn [walk map]; [done|]. destruct (chain_sep a a' mol H) as [_ E]. rewrite E.
    f_equal. rewrite IH by (by eapply contiguous_tail). apply map_ext. intros x. f_equal. unfold vadd, vsub; cbn [vx vy vz]; f_equal; ring.
  Qed.
  Lemma back_walk_spec a mol : contiguous b pos u (a :: mol) ->
    back_walk sepn pos (a :: mol) = Ok (map (fun x => (x, vsub (vadd (pos a) (u a)) (u x))) (a :: mol)).
  Proof using Hb.
    intros H. unfold back_walk, unwrapped. rewrite back_spec by done. cbn [map]. f_equal. f_equal.
    - f_equal. destruct (pos a) as [p1 p2 p3], (u a) as [q1 q2 q3]. unfold vadd, vsub; cbn [vx vy vz]; f_equal; ring.
    - apply map_ext. intros x. f_equal. unfold vadd, vsub; cbn [vx vy vz]; f_equal; ring.
  Qed.
  Lemma fore_walk_spec a mol : contiguous b pos u (a :: mol) ->
    fore_walk sepn pos (a :: mol) = Ok (map (fun x => (x, vadd (vsub (pos a) (u a)) (u x))) (a :: mol)).
  Proof using Hb.
    intros H. unfold fore_walk, unwrapped. rewrite fore_spec by done. cbn [map]. f_equal. f_equal.
    - f_equal. destruct (pos a) as [p1 p2 p3], (u a) as [q1 q2 q3]. unfold vadd, vsub; cbn [vx vy vz]; f_equal; ring.
    - apply map_ext. intros x. f_equal. unfold vadd, vsub; cbn [vx vy vz]; f_equal; ring.
  Qed.
End Box.

Lemma sum_sel_spec sel (f : nat -> vec3 R) mol : sum_sel sel (map (fun x => (x, f x)) mol) = vsum_over (List.filter sel mol) f.
Proof.
  unfold sum_sel. assert (G : forall s, fold_left (fun s p => if sel (fst p) then vadd s (snd p) else s) (map (fun x => (x, f x)) mol) s = vadd s (vsum_over (List.filter sel mol) f)).
  { induction mol as [|a mol IH]; intros s; cbn [map fold_left List.filter fst snd].
    - destruct s. unfold vadd, vsum_over, sum_over. cbn. f_equal; lra.
    - rewrite IH. destruct (sel a); [|done]. unfold vadd, vsum_over, sum_over. cbn. f_equal; lra. }
  rewrite G. unfold vadd, vsum_over. cbn. f_equal; lra.
Qed.
Lemma add_sq_spec sel (f : nat -> vec3 R) o mol : forall d, add_sq sel o d (map (fun x => (x, f x)) mol) = d + sum_over (List.filter sel mol) (fun a => normSq (vsub (f a) o)).
Proof.
  unfold add_sq, sum_over. induction mol as [|a mol IH]; intros d; cbn [map fold_left List.filter fst snd Rsum]; [lra|].
  rewrite IH. destruct (sel a); cbn [map Rsum]; lra.
Qed.
Lemma sum_mul_const {A} (l : list A) c f : sum_over l (fun a => c * f a) = c * sum_over l f.
Proof. unfold sum_over. induction l as [|a l IH]; cbn [map Rsum]; [lra|]. rewrite IH. lra. Qed.
Lemma sum_const_minus (A : list nat) (f : nat -> R) x : sum_over A (fun a => x - f a) = INR (length A) * x - sum_over A f.
Proof. unfold sum_over. induction A as [|a A IH]; cbn [map Rsum]; [cbn; lra|]. rewrite IH. cbn [length]. rewrite S_INR. lra. Qed.
(** The mean of mirrored positions is the mirrored mean. *)
Lemma mean_mirror (A : list nat) c (u : nat -> vec3 R) : A <> [] -> mean A (fun x => vsub c (u x)) = vsub c (mean A u).
Proof.
  intros Hne. assert (0 < INR (length A)) as Hp by (apply lt_0_INR; destruct A; [done|cbn; lia]).
  unfold mean, vsum_over, vscale, vsub. cbn [vx vy vz]. rewrite !sum_const_minus. f_equal; field; lra.
Qed.
Lemma mirror_sq c (v o : vec3 R) : normSq (vsub (vsub c v) (vsub c o)) = normSq (vsub v o).
Proof. unfold normSq, vdot, vsub. cbn [vx vy vz]. ring. Qed.
Lemma foldM_sum {A} (f : R -> A -> outcome R) g : forall l d, (forall x d, x ∈ l -> f d x = Ok (d + g x)) -> foldM f d l = Ok (d + sum_over l g).
Proof.
  induction l as [|x l IH]; intros d H; cbn [foldM].
  - unfold sum_over. cbn. f_equal. lra.
  - rewrite (H x d ltac:(left)). cbn [obind]. rewrite IH by (intros; apply H; by right). f_equal. unfold sum_over. cbn. lra.
Qed.
Lemma sum_ext_in {A} (l : list A) (f g : A -> R) : (forall a, a ∈ l -> f a = g a) -> sum_over l f = sum_over l g.
Proof. unfold sum_over. induction l as [|a l IH]; intros H; cbn [map Rsum]; [done|]. rewrite (H a ltac:(left)), IH; [done|]. intros x Hx. apply H. by right. Qed.
