(** Proofs about exchangeAtoms: what all rounds do to one atom. *)
From Verif Require Import Base Containers Vec3 PlanModel PlanSpec PlanProofs DomainModel DomainSpec DomainProofs DomainProps SpeciesModel SpeciesProofs SimProofs DistSpec ExchModel ExchSpec ExchProofs ExchAtoms.
From Coq Require Import Reals Lra.
Local Open Scope nat_scope.

(** ** Plans *)
Lemma ex_setE p a b i j : a < 3 -> b < 2 -> i < 3 -> j < 2 -> exchange (setExchange p a b) i j = (Nat.eqb i a && Nat.eqb j b) || exchange p i j.
Proof.
  intros. pose proof (step_spec p (SetExchange a b) Exch i j) as HH. cbn in HH. rewrite HH by (cbn; done). unfold write.
  destruct i as [|[|[|]]], j as [|[|]], a as [|[|[|]]], b as [|[|]]; try lia; done.
Qed.
Lemma ex_setG p a b i j : a < 3 -> b < 2 -> i < 3 -> j < 2 -> exchange (setGhost p a b) i j = exchange p i j.
Proof. intros. pose proof (step_spec p (SetGhost a b) Exch i j) as HH. cbn in HH. rewrite HH by (cbn; done). done. Qed.
Lemma gh_setE p a b i j : a < 3 -> b < 2 -> i < 3 -> j < 2 -> ghost (setExchange p a b) i j = ghost p i j.
Proof. intros. pose proof (step_spec p (SetExchange a b) Ghost i j) as HH. cbn in HH. rewrite HH by (cbn; done). done. Qed.
Lemma gh_setG p a b i j : a < 3 -> b < 2 -> i < 3 -> j < 2 -> ghost (setGhost p a b) i j = (Nat.eqb i a && Nat.eqb j b) || ghost p i j.
Proof.
  intros. pose proof (step_spec p (SetGhost a b) Ghost i j) as HH. cbn in HH. rewrite HH by (cbn; done). unfold write.
  destruct i as [|[|[|]]], j as [|[|]], a as [|[|[|]]], b as [|[|]]; try lia; done.
Qed.
Lemma gh_clearG p a b i j : a < 3 -> b < 2 -> i < 3 -> j < 2 -> i <> a -> ghost (clearGhost p a b) i j = ghost p i j.
Proof.
  intros. pose proof (step_spec p (ClearGhost a b) Ghost i j) as HH. cbn in HH. rewrite HH by (cbn; done). unfold write.
  destruct i as [|[|[|]]], j as [|[|]], a as [|[|[|]]], b as [|[|]]; try lia; done.
Qed.

(** The flags of one axis. *)
Definition fE0 (lo x : R) : bool := if Rlt_dec x lo then true else false.
Definition fE1 (hi x : R) : bool := if Rlt_dec hi x then true else false.
Definition fG0 (lo hi s x : R) : bool := (if Rlt_dec x lo then false else if Rlt_dec x (lo + s) then true else false) || (if Rlt_dec hi x then if Rlt_dec x (hi + s) then true else false else false).
Definition fG1 (lo hi s x : R) : bool := (if Rlt_dec x lo then if Rlt_dec (lo - s) x then true else false else false) || (if Rlt_dec hi x then false else if Rlt_dec (hi - s) x then true else false).

Lemma plan_axis_flags D s x a p i j : a < 3 -> i < 3 -> j < 2 ->
  exchange (plan_axis D s x a p) i j = (Nat.eqb i a && match j with 0 => fE0 (domainBound D a 0) x | _ => fE1 (domainBound D a 1) x end) || exchange p i j /\
  ghost (plan_axis D s x a p) i j = (Nat.eqb i a && match j with 0 => fG0 (domainBound D a 0) (domainBound D a 1) s x | _ => fG1 (domainBound D a 0) (domainBound D a 1) s x end) || ghost p i j.
Proof.
  intros Ha Hi Hj. unfold plan_axis, fE0, fE1, fG0, fG1, xinner, xouter.
  repeat match goal with |- context [Rlt_dec ?u ?v] => destruct (Rlt_dec u v) end;
  (split; [repeat first [rewrite ex_setE by lia|rewrite ex_setG by lia]|repeat first [rewrite gh_setE by lia|rewrite gh_setG by lia]]);
  destruct (Nat.eqb_spec i a); destruct j as [|[|]]; try lia; cbn [andb orb Nat.eqb]; reflexivity.
Qed.

Lemma exchange_0 i j : exchange 0%N i j = false.
Proof. destruct i as [|[|[|]]], j as [|[|]]; reflexivity. Qed.
Lemma ghost_0 i j : ghost 0%N i j = false.
Proof. destruct i as [|[|[|]]], j as [|[|]]; reflexivity. Qed.

Lemma plan_flags D s x i : i < 3 ->
  exchange (plan_atom D s x) i 0 = fE0 (domainBound D i 0) (vget x i) /\
  exchange (plan_atom D s x) i 1 = fE1 (domainBound D i 1) (vget x i) /\
  ghost (plan_atom D s x) i 0 = fG0 (domainBound D i 0) (domainBound D i 1) (vget s i) (vget x i) /\
  ghost (plan_atom D s x) i 1 = fG1 (domainBound D i 0) (domainBound D i 1) (vget s i) (vget x i).
Proof.
  intros Hi. unfold plan_atom. cbn [fold_left]. unfold clearFlags.
  assert (H : forall j, j < 2 ->
    exchange (plan_axis D (vget s 2) (vget x 2) 2 (plan_axis D (vget s 1) (vget x 1) 1 (plan_axis D (vget s 0) (vget x 0) 0 0%N))) i j =
      match j with 0 => fE0 (domainBound D i 0) (vget x i) | _ => fE1 (domainBound D i 1) (vget x i) end /\
    ghost (plan_axis D (vget s 2) (vget x 2) 2 (plan_axis D (vget s 1) (vget x 1) 1 (plan_axis D (vget s 0) (vget x 0) 0 0%N))) i j =
      match j with 0 => fG0 (domainBound D i 0) (domainBound D i 1) (vget s i) (vget x i) | _ => fG1 (domainBound D i 0) (domainBound D i 1) (vget s i) (vget x i) end).
  { intros j Hj. split.
    - rewrite !(fun a => proj1 (plan_axis_flags _ _ _ _ _ _ _ a Hi Hj)) by lia. rewrite exchange_0.
      destruct i as [|[|[|]]]; try lia; cbn [Nat.eqb andb orb]; rewrite ?orb_false_r; done.
    - rewrite !(fun a => proj2 (plan_axis_flags _ _ _ _ _ _ _ a Hi Hj)) by lia. rewrite ghost_0.
      destruct i as [|[|[|]]]; try lia; cbn [Nat.eqb andb orb]; rewrite ?orb_false_r; done. }
  destruct (H 0) as [H1 H2]; [lia|]. destruct (H 1) as [H3 H4]; [lia|]. done.
Qed.

(** ** One atom *)
Section elem.
  Context (dims : vec3 Z) (Hd : grid_ok dims).
  Notation n := (n_proc dims).
  Notation dd i := (IZR (vget dims i)).
  Local Open Scope R_scope.
  (** Position along an axis relative to the lower face of the domain, in units of its width. *)
  Definition yy (i : nat) (r : nat) (x : vec3 R) : R := vget x i * dd i - IZR (vget (coords dims r) i).

  Lemma dd_pos i : 0 < dd i.
  Proof. apply IZR_lt. by apply vget3_pos. Qed.
  Lemma bounds r D i : domain_of dims (Z.of_nat r) D ->
    domainBound D i 0 = IZR (vget (coords dims r) i) / dd i /\ domainBound D i 1 = (IZR (vget (coords dims r) i) + 1) / dd i.
  Proof.
    intros H. destruct (dom_tables _ Hd _ _ H) as (H1 & H2 & _). unfold domainBound. rewrite H1, H2. pose proof (dd_pos i). cbn [INR].
    split; field; lra.
  Qed.
  Lemma lt_div a b c : 0 < c -> (a < b / c <-> a * c < b) /\ (b / c < a <-> b < a * c) /\ (a <= b / c <-> a * c <= b) /\ (b / c <= a <-> b <= a * c).
  Proof.
    intros Hc. assert (E : b = (b / c) * c) by (field; lra). set (q := b / c) in *. rewrite E. clear E. clearbody q.
    repeat split; intros; try (by apply Rmult_lt_compat_r); try (by apply Rmult_le_compat_r; [lra|]); try (by eapply Rmult_lt_reg_r); try (by eapply Rmult_le_reg_r; eauto).
  Qed.
  Lemma closed_yy r D x : domain_of dims (Z.of_nat r) D -> in_closed D x <-> (forall i, (i < 3)%nat -> 0 <= yy i r x <= 1).
  Proof.
    intros H. unfold in_closed. split; intros HH i Hi; specialize (HH i Hi); destruct (bounds r D i H) as [B0 B1]; rewrite B0, B1 in *; unfold yy in *;
      pose proof (lt_div (vget x i) (IZR (vget (coords dims r) i)) (dd i) (dd_pos i)); pose proof (lt_div (vget x i) (IZR (vget (coords dims r) i) + 1) (dd i) (dd_pos i)); lra.
  Qed.
  Lemma margin_div (x : R) c m i : (c / dd i - m = (c - m * dd i) / dd i) /\ (c / dd i + m = (c + m * dd i) / dd i).
  Proof. pose proof (dd_pos i). split; field; lra. Qed.
  Lemma within_yy r D m x : domain_of dims (Z.of_nat r) D -> within D m x <-> (forall i, (i < 3)%nat -> - (vget m i * dd i) <= yy i r x <= 1 + vget m i * dd i).
  Proof.
    intros H. unfold within. split; intros HH i Hi; specialize (HH i Hi); destruct (bounds r D i H) as [B0 B1]; rewrite B0, B1 in *; unfold yy in *;
      set (c := IZR (vget (coords dims r) i)) in *; rewrite (proj1 (margin_div (vget x i) _ _ _)), (proj2 (margin_div (vget x i) _ _ _)) in *;
      pose proof (lt_div (vget x i) (c - vget m i * dd i) (dd i) (dd_pos i)); pose proof (lt_div (vget x i) (c + 1 + vget m i * dd i) (dd i) (dd_pos i)); lra.
  Qed.
  Lemma near_yy r D m x : domain_of dims (Z.of_nat r) D -> near D m x <-> (forall i, (i < 3)%nat -> - (vget m i * dd i) < yy i r x < 1 + vget m i * dd i).
  Proof.
    intros H. unfold near. split; intros HH i Hi; specialize (HH i Hi); destruct (bounds r D i H) as [B0 B1]; rewrite B0, B1 in *; unfold yy in *;
      set (c := IZR (vget (coords dims r) i)) in *; rewrite (proj1 (margin_div (vget x i) _ _ _)), (proj2 (margin_div (vget x i) _ _ _)) in *;
      pose proof (lt_div (vget x i) (c - vget m i * dd i) (dd i) (dd_pos i)); pose proof (lt_div (vget x i) (c + 1 + vget m i * dd i) (dd i) (dd_pos i)); lra.
  Qed.

  (** The flags in terms of the relative position. *)
  Lemma flags_yy r D s x i : domain_of dims (Z.of_nat r) D -> (i < 3)%nat -> let y := yy i r x in let w := vget s i * dd i in
    (exchange (plan_atom D s x) i 0 = true <-> y < 0) /\ (exchange (plan_atom D s x) i 1 = true <-> 1 < y) /\
    (ghost (plan_atom D s x) i 0 = true <-> 0 <= y < w \/ 1 < y < 1 + w) /\
    (ghost (plan_atom D s x) i 1 = true <-> - w < y < 0 \/ 1 - w < y <= 1).
  Proof.
    intros H Hi y w. destruct (plan_flags D s x i Hi) as (-> & -> & -> & ->). destruct (bounds r D i H) as [-> ->].
    unfold fE0, fE1, fG0, fG1, y, w, yy. clear y w. set (c := IZR (vget (coords dims r) i)).
    rewrite !(proj1 (margin_div (vget x i) _ _ _)), !(proj2 (margin_div (vget x i) _ _ _)).
    pose proof (lt_div (vget x i) c (dd i) (dd_pos i)). pose proof (lt_div (vget x i) (c + 1) (dd i) (dd_pos i)).
    pose proof (lt_div (vget x i) (c - vget s i * dd i) (dd i) (dd_pos i)). pose proof (lt_div (vget x i) (c + vget s i * dd i) (dd i) (dd_pos i)).
    pose proof (lt_div (vget x i) (c + 1 - vget s i * dd i) (dd i) (dd_pos i)). pose proof (lt_div (vget x i) (c + 1 + vget s i * dd i) (dd i) (dd_pos i)).
    repeat split; repeat match goal with |- context [Rlt_dec ?u ?v] => destruct (Rlt_dec u v) end; cbn [orb]; intros; try discriminate; try reflexivity; lra.
  Qed.

  Lemma vget_shift_eq x i t : vget (shift_pos x i t) i = vget x i + IZR t.
  Proof. unfold shift_pos. by rewrite vget_vset_eq. Qed.
  Lemma vget_shift_ne x i k t : (i < 3)%nat -> (k < 3)%nat -> i <> k -> vget (shift_pos x i t) k = vget x k.
  Proof. intros. unfold shift_pos. by rewrite vget_vset_ne. Qed.
  Lemma shift_translate x i t : (i < 3)%nat -> exists k, shift_pos x i t = translate x k.
  Proof.
    intros Hi. exists (vset (V3 0 0 0)%Z i t). apply vec3_ext. intros k Hk. destruct (decide (i = k)) as [<-|Hn].
    - rewrite vget_shift_eq. destruct i as [|[|[|]]]; try lia; reflexivity.
    - rewrite vget_shift_ne by done. destruct i as [|[|[|]]], k as [|[|[|]]]; try lia; cbn; rewrite Rplus_0_r; reflexivity.
  Qed.
  Lemma translate_translate x k l : translate (translate x k) l = translate x (V3 (vx k + vx l) (vy k + vy l) (vz k + vz l))%Z.
  Proof. unfold translate. cbn. by rewrite !plus_IZR, !Rplus_assoc. Qed.
  Lemma translate_0 x : translate x (V3 0 0 0)%Z = x.
  Proof. destruct x. unfold translate. cbn. by rewrite !Rplus_0_r. Qed.

  (** A transfer: rank and position. *)
  Lemma yy_dst i j r x : (i < 3)%nat -> (j < 2)%nat -> (r < n)%nat ->
    yy i (dst dims i j r) (shift_pos x i (shf dims i j (dst dims i j r))) = yy i r x - IZR (step_of j).
  Proof.
    intros Hi Hj Hr. unfold yy. rewrite vget_shift_eq. pose proof (dst_shift dims Hd i j r Hi Hj Hr) as E.
    apply (f_equal IZR) in E. rewrite minus_IZR, plus_IZR, mult_IZR in E. lra.
  Qed.
  Lemma yy_dst_ne i j k r x t : (i < 3)%nat -> (k < 3)%nat -> i <> k -> (r < n)%nat -> yy k (dst dims i j r) (shift_pos x i t) = yy k r x.
  Proof.
    intros Hi Hk Hn Hr. unfold yy. rewrite vget_shift_ne by done. rewrite coords_dst by done. unfold nbr. by rewrite vget_vset_ne.
  Qed.

  (** Same atom, moved by whole periods. *)
  Lemma same_refl a : same_atom a a.
  Proof. repeat split. exists (V3 0 0 0)%Z. by rewrite translate_0. Qed.
  Lemma same_trans a b c : same_atom a b -> same_atom b c -> same_atom a c.
  Proof. intros (?&?&?&k&E) (?&?&?&l&E'). repeat split; try congruence. rewrite E', E, translate_translate. eauto. Qed.

  Lemma mv_spec i j u : (i < 3)%nat -> (j < 2)%nat -> (u.1 < n)%nat -> let v := mv dims i j u in
    (v.1 < n)%nat /\ xPlan v.2 = xPlan u.2 /\ same_atom u.2 v.2 /\
    yy i v.1 (xPos v.2) = (if ex i j u.2 then yy i u.1 (xPos u.2) - IZR (step_of j) else yy i u.1 (xPos u.2)) /\
    forall k, (k < 3)%nat -> i <> k -> yy k v.1 (xPos v.2) = yy k u.1 (xPos u.2).
  Proof.
    intros Hi Hj Hu v. subst v. unfold mv. destruct (ex i j u.2) eqn:E; cbn [fst snd sh_a xPlan xPos].
    - split; [by apply dst_lt|]. split; [done|]. split; [|split].
      + repeat split. cbn. by apply shift_translate.
      + by apply yy_dst.
      + intros k Hk Hn. by apply yy_dst_ne.
    - split; [done|]. split; [done|]. split; [apply same_refl|]. done.
  Qed.

  (** Both directions of an axis, for an atom with the right exchange flags. *)
  Lemma axis_spec i u : (i < 3)%nat -> (u.1 < n)%nat -> let y := yy i u.1 (xPos u.2) in
    (ex i 0 u.2 = true <-> y < 0) -> (ex i 1 u.2 = true <-> 1 < y) ->
    let v := mv dims i 1 (mv dims i 0 u) in
    (v.1 < n)%nat /\ xPlan v.2 = xPlan u.2 /\ same_atom u.2 v.2 /\
    yy i v.1 (xPos v.2) = (if Rlt_dec y 0 then y + 1 else if Rlt_dec 1 y then y - 1 else y) /\
    forall k, (k < 3)%nat -> i <> k -> yy k v.1 (xPos v.2) = yy k u.1 (xPos u.2).
  Proof.
    intros Hi Hu y H0 H1 v. destruct (mv_spec i 0 u Hi ltac:(lia) Hu) as (A1 & A2 & A3 & A4 & A5).
    destruct (mv_spec i 1 (mv dims i 0 u) Hi ltac:(lia) A1) as (B1 & B2 & B3 & B4 & B5). fold v in B1, B2, B3, B4, B5.
    split; [done|]. split; [congruence|]. split; [by eapply same_trans|]. split.
    - rewrite B4. unfold ex at 1. rewrite A2, A4. fold (ex i 1 u.2). fold y. cbn [step_of].
      destruct (Rlt_dec y 0) as [E|E].
      + rewrite (proj2 H0 E). destruct (ex i 1 u.2) eqn:E1; [apply proj1 in H1; specialize (H1 eq_refl); lra|]. lra.
      + destruct (ex i 0 u.2) eqn:E0; [apply proj1 in H0; specialize (H0 eq_refl); lra|].
        destruct (Rlt_dec 1 y) as [E'|E']; [by rewrite (proj2 H1 E')|].
        destruct (ex i 1 u.2) eqn:E1; [apply proj1 in H1; specialize (H1 eq_refl); lra|]. done.
    - intros k Hk Hn. rewrite B5, A5 by done. done.
  Qed.

  Definition M (u : nat * xatom) : nat * xatom := fold_left (fun u ij => mv dims ij.1 ij.2 u) dirs u.
  Lemma M_spec s u D : (u.1 < n)%nat -> domain_of dims (Z.of_nat u.1) D -> xPlan u.2 = plan_atom D s (xPos u.2) ->
    let v := M u in
    (v.1 < n)%nat /\ xPlan v.2 = xPlan u.2 /\ same_atom u.2 v.2 /\
    forall i, (i < 3)%nat -> let y := yy i u.1 (xPos u.2) in yy i v.1 (xPos v.2) = (if Rlt_dec y 0 then y + 1 else if Rlt_dec 1 y then y - 1 else y).
  Proof.
    intros Hu HD HP. unfold M, dirs. cbn [fold_left fst snd].
    assert (HE : forall i, (i < 3)%nat -> (ex i 0 u.2 = true <-> yy i u.1 (xPos u.2) < 0) /\ (ex i 1 u.2 = true <-> 1 < yy i u.1 (xPos u.2))).
    { intros i Hi. destruct (flags_yy _ D s (xPos u.2) i HD Hi) as (F0 & F1 & _). unfold ex. rewrite HP. done. }
    destruct (axis_spec 0 u ltac:(lia) Hu) as (A1 & A2 & A3 & A4 & A5); [apply HE; lia|apply HE; lia|]. set (u1 := mv dims 0 1 (mv dims 0 0 u)) in *.
    destruct (axis_spec 1 u1 ltac:(lia) A1) as (B1 & B2 & B3 & B4 & B5).
    { unfold ex. rewrite A2, A5 by lia. apply HE. lia. } { unfold ex. rewrite A2, A5 by lia. apply HE. lia. }
    set (u2 := mv dims 1 1 (mv dims 1 0 u1)) in *.
    destruct (axis_spec 2 u2 ltac:(lia) B1) as (C1 & C2 & C3 & C4 & C5).
    { unfold ex. rewrite B2, A2, B5, A5 by lia. apply HE. lia. } { unfold ex. rewrite B2, A2, B5, A5 by lia. apply HE. lia. }
    set (u3 := mv dims 2 1 (mv dims 2 0 u2)) in *.
    split; [done|]. split; [congruence|]. split; [eapply same_trans; [done|]; by eapply same_trans|].
    intros i Hi. destruct i as [|[|[|]]]; [| | |lia]; cbv zeta.
    - rewrite C5, B5 by lia. apply A4.
    - rewrite C5 by lia. rewrite B4. rewrite A5 by lia. done.
    - rewrite C4. rewrite B5, A5 by lia. done.
  Qed.
End elem.
