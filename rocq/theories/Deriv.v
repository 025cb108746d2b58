(** Derivatives of piecewise functions. *)
From Coq Require Import Reals Lra.
From Coquelicot Require Import Coquelicot.
Local Open Scope R_scope.

Lemma locally_between (a b x : R) (P : R -> Prop) :
  a < x < b -> (forall y, a < y < b -> P y) -> locally x P.
Proof.
  intros Hx H. assert (Hd : 0 < Rmin (x - a) (b - x)) by (apply Rmin_pos; lra).
  exists (mkposreal _ Hd). intros y Hy. apply H.
  unfold ball in Hy; simpl in Hy. unfold AbsRing_ball, abs, minus, plus, opp in Hy; simpl in Hy.
  pose proof (Rmin_l (x - a) (b - x)). pose proof (Rmin_r (x - a) (b - x)).
  apply Rabs_def2 in Hy. lra.
Qed.

Lemma is_derive_between (a b x l : R) (f g : R -> R) :
  a < x < b -> (forall y, a < y < b -> f y = g y) -> is_derive g x l -> is_derive f x l.
Proof.
  intros Hx H D. apply (is_derive_ext_loc g); [|exact D].
  apply (locally_between a b); [exact Hx|]. intros y Hy. symmetry. now apply H.
Qed.

(** Two differentiable pieces that meet with the same value and slope. *)
Lemma is_derive_glue (a b x l : R) (f g h : R -> R) :
  a < x < b -> is_derive g x l -> is_derive h x l -> g x = h x ->
  (forall y, a < y < x -> f y = g y) -> (forall y, x <= y < b -> f y = h y) ->
  is_derive f x l.
Proof.
  intros Hx Dg Dh E Hg Hh. apply is_derive_Reals. apply is_derive_Reals in Dg, Dh.
  intros eps He. destruct (Dg eps He) as [d1 H1]. destruct (Dh eps He) as [d2 H2].
  set (d := Rmin (Rmin d1 d2) (Rmin (x - a) (b - x))).
  assert (Hd : 0 < d).
  { unfold d. repeat apply Rmin_pos; try lra; apply cond_pos. }
  exists (mkposreal d Hd). intros y Hy0 Hy. simpl in Hy.
  assert (L1 : d <= d1) by (unfold d; eapply Rle_trans; [apply Rmin_l|apply Rmin_l]).
  assert (L2 : d <= d2) by (unfold d; eapply Rle_trans; [apply Rmin_l|apply Rmin_r]).
  assert (L3 : d <= x - a) by (unfold d; eapply Rle_trans; [apply Rmin_r|apply Rmin_l]).
  assert (L4 : d <= b - x) by (unfold d; eapply Rle_trans; [apply Rmin_r|apply Rmin_r]).
  pose proof (Rabs_def2 _ _ Hy) as B.
  rewrite (Hh x) by lra.
  destruct (Rlt_dec y 0) as [Hn|Hn].
  - rewrite (Hg (x + y)) by lra. rewrite <- E. apply H1; [exact Hy0|lra].
  - rewrite (Hh (x + y)) by lra. apply H2; [exact Hy0|lra].
Qed.

Lemma is_derive_eq (f : R -> R) (x l l' : R) : is_derive f x l -> l = l' -> is_derive f x l'.
Proof. now intros H <-. Qed.
