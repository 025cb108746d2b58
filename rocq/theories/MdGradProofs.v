(** Differentiating the energy along a displacement of all atoms. *)
From Coq Require Import Reals Lra.
From Coquelicot Require Import Coquelicot.
From stdpp Require Import gmap.
From Verif Require Import Base Vec3 BoxSpec OrthoModel OrthoSpec OrthoProofs OrthoProps MonoModel MonoSpec MonoProofs MonoProps.
From Verif Require Import McCellModel DomainModel DomainProofs SpeciesModel SpeciesProofs.
From Verif Require Import CellListModel CellListSpec CellListProofs CellListProps PairListModel PairListSpec PairListProofs PairListProps.
From Verif Require Import EnergyModel EnergySpec EnergyProofs MoveModel MoveSpec MoveProofs EnergyProps MoveProps MdModel MdSpec MdProofs MdForces GradSpec MdGradSpec.
From Verif Require Import Deriv.
From Coq Require Import Reals Lra.
Local Open Scope R_scope.

Lemma derive_sum {A} (f : A -> R -> R) (d : A -> R) l : (forall x, x ∈ l -> is_derive (f x) 0 (d x)) ->
  is_derive (fun t => sum_over l (fun x => f x t)) 0 (sum_over l d).
Proof.
  induction l as [|x l IH]; intros H.
  - apply (is_derive_ext (fun _ => 0)); [done|]. apply (is_derive_const (V := R_NormedModule)).
  - rewrite sum_cons. apply (is_derive_ext (fun t => f x t + sum_over l (fun x => f x t))); [done|].
    apply (is_derive_plus (V := R_NormedModule)); [apply H; left|]. apply IH. intros z Hz. apply H. by right.
Qed.

(** ** Separations are locally linear *)
Definition linear_near (dr : vec3 R -> vec3 R -> R * vec3 R) (p q : vec3 R) : Prop :=
  forall e f, locally 0 (fun t => let d := GradSpec.move (dr p q).2 (vsub e f) t in
    dr (GradSpec.move p e t) (GradSpec.move q f t) = (normSq d, d)).

Lemma sep_axis_near L x1 x2 a1 a2 : 0 < L -> Rabs (x1 - x2) <> L / 2 ->
  locally 0 (fun t => sep_axis (L/2) L (x1 + t * a1) (x2 + t * a2) =
     ((sep_axis (L/2) L x1 x2).1 + t * (a1 - a2), (sep_axis (L/2) L x1 x2).2)).
Proof.
  intros HL Hne. set (D := x1 - x2) in *. set (A := a1 - a2).
  set (gap := Rabs (Rabs D - L/2)). assert (Hg : 0 < gap) by (apply Rabs_pos_lt; lra).
  assert (Hd : 0 < gap / (Rabs A + 1)) by (apply Rdiv_lt_0_compat; [done|pose proof (Rabs_pos A); lra]).
  exists (mkposreal _ Hd). intros t Ht0.
  assert (Ht : Rabs t < gap / (Rabs A + 1)) by (replace t with (t - 0) by ring; exact Ht0). clear Ht0.
  assert (Hs : Rabs (t * A) < gap).
  { rewrite Rabs_mult. pose proof (Rabs_pos A). apply Rle_lt_trans with (Rabs t * (Rabs A + 1)); [pose proof (Rabs_pos t); nra|].
    apply (Rmult_lt_compat_r (Rabs A + 1)) in Ht; [|lra]. replace (gap / (Rabs A + 1) * (Rabs A + 1)) with gap in Ht by (field; lra). done. }
  unfold sep_axis. replace (x1 + t * a1 - (x2 + t * a2)) with (D + t * A) by (unfold D, A; ring). fold D.
  set (s := t * A) in *. clearbody s. unfold gap in Hs. clear Hd Ht Hg gap.
  revert Hs Hne. unfold Rabs. repeat destruct (Rcase_abs _); intros;
  repeat (destruct (Rgt_dec _ _)); cbn [fst snd]; try lra; try (f_equal; unfold D; ring).
Qed.
Lemma vget_move p e t i : vget (GradSpec.move p e t) i = vget p i + t * vget e i.
Proof. unfold GradSpec.move. by rewrite vget_add, vget_scale. Qed.
Lemma face_ne L a b : 0 < L -> Rabs (a / L - b / L) <> 1/2 -> Rabs (a - b) <> L / 2.
Proof.
  intros HL H E. apply H. replace (a / L - b / L) with ((a - b) / L) by (field; lra). unfold Rdiv at 1. rewrite Rabs_mult, E.
  rewrite (Rabs_right (/ L)); [field; lra|]. left. by apply Rinv_0_lt_compat.
Qed.
Lemma ortho_near b p q : a_box b -> off_faces (ortho_bd b) p q -> linear_near (distanceSq_dr b) p q.
Proof.
  intros Hb Hf e f. destruct (owf_a_box b Hb) as (l & lat & W).
  assert (HA : forall i, (i < 3)%nat -> Rabs (vget p i - vget q i) <> vget l i / 2).
  { intros i Hi. apply face_ne; [by apply pos3_get, (w_pos _ _ _ W)|]. specialize (Hf i Hi). cbn [ortho_bd bGen] in Hf.
    unfold cartToGen in Hf. rewrite (w_inv _ _ _ W) in Hf. destruct i as [|[|[|]]]; [exact Hf..|lia]. }
  pose proof (fun i Hi => sep_axis_near (vget l i) (vget p i) (vget q i) (vget e i) (vget f i) (pos3_get l i (w_pos _ _ _ W)) (HA i Hi)) as HN.
  pose proof (filter_and (F := locally (0 : R)) _ _ (HN 0%nat ltac:(lia)) (filter_and (F := locally (0 : R)) _ _ (HN 1%nat ltac:(lia)) (HN 2%nat ltac:(lia)))) as HF.
  revert HF. apply (filter_imp (F := locally (0 : R))). intros t (H0 & H1 & H2). unfold distanceSq_dr. rewrite !(sep_eq b l lat _ _ _ W) by lia.
  rewrite !vget_move, H0, H1, H2. cbn [fst snd]. unfold normSq, vdot, GradSpec.move, vadd, vscale, vsub. cbn [vx vy vz vget]. done.
Qed.
Lemma mono_near b p q : a_mbox b -> off_faces (mono_bd b) p q -> linear_near (mono_distanceSq_dr b) p q.
Proof.
  intros Hb Hf e f. destruct (mwf_a_mbox b Hb) as (l & d & W). destruct (m_pos _ _ _ W) as (X & Y & Z).
  pose proof (Hf 0%nat ltac:(lia)) as F0. pose proof (Hf 1%nat ltac:(lia)) as F1. pose proof (Hf 2%nat ltac:(lia)) as F2. clear Hf.
  cbn [mono_bd bGen vget] in F0, F1, F2. unfold mono_cartToGen in F0, F1, F2. rewrite (m_inv _ _ _ W) in F0, F1, F2. cbn [vx vy vz] in F0, F1, F2.
  apply face_ne in F0; [|done]. apply face_ne in F1; [|done]. apply face_ne in F2; [|done]. rewrite (m_c3 _ _ _ W) in F2.
  replace (vz p + - d / vy l * vy p - (vz q + - d / vy l * vy q)) with (vz p - d / vy l * vy p - (vz q - d / vy l * vy q)) in F2 by (unfold Rdiv; ring).
  pose proof (sep_axis_near _ _ _ (vx e) (vx f) X F0) as N0. pose proof (sep_axis_near _ _ _ (vy e) (vy f) Y F1) as N1.
  pose proof (sep_axis_near _ _ _ (vz e - d / vy l * vy e) (vz f - d / vy l * vy f) Z F2) as N2.
  pose proof (filter_and (F := locally (0 : R)) _ _ N0 (filter_and (F := locally (0 : R)) _ _ N1 N2)) as HF.
  revert HF. apply (filter_imp (F := locally (0 : R))). intros t (H0 & H1 & H2). unfold mono_distanceSq_dr. rewrite !(mono_sep_axes b l d _ _ W). cbv zeta.
  unfold GradSpec.move, vadd, vscale, vsub. cbn [vx vy vz].
  replace (vz p + t * vz e - d / vy l * (vy p + t * vy e)) with (vz p - d / vy l * vy p + t * (vz e - d / vy l * vy e)) by ring.
  replace (vz q + t * vz f - d / vy l * (vy q + t * vy f)) with (vz q - d / vy l * vy q + t * (vz f - d / vy l * vy f)) by ring.
  rewrite H0, H1, H2. cbn [fst snd vx vy vz]. unfold normSq, vdot. cbn [vx vy vz]. f_equal; [ring|]. f_equal. ring.
Qed.

(** ** Derivatives of one term *)
Lemma linear_val dr p q : linear_near dr p q -> (dr p q).1 = normSq (dr p q).2.
Proof.
  intros H. pose proof (locally_singleton _ _ (H vzero vzero)) as E. cbv beta zeta in E.
  assert (M : forall r, GradSpec.move r vzero 0 = r) by (intros [a b c]; unfold GradSpec.move, vadd, vscale, vzero; cbn; f_equal; ring).
  assert (M' : forall r, GradSpec.move r (vsub vzero vzero) 0 = r) by (intros [a b c]; unfold GradSpec.move, vadd, vscale, vsub, vzero; cbn; f_equal; ring).
  rewrite !M, M' in E. rewrite E at 1. done.
Qed.
Lemma normSq_nonneg v : 0 <= normSq v.
Proof. unfold normSq, vdot. nra. Qed.
(** A function of the length. *)
Lemma radial_derive (v : R -> R) (d e : vec3 R) (l : R) : 0 < normSq d ->
  is_derive (fun x => v (x * x)) (sqrt (normSq d)) (l * sqrt (normSq d)) ->
  is_derive (fun t => v (normSq (GradSpec.move d e t))) 0 (l * vdot d e).
Proof.
  intros Hd Hv. set (g := fun t => sqrt (normSq (GradSpec.move d e t))).
  assert (E0 : normSq (GradSpec.move d e 0) = normSq d) by (unfold GradSpec.move, normSq, vdot, vadd, vscale; cbn [vx vy vz]; ring).
  assert (D : is_derive g 0 (vdot d e / sqrt (normSq d))).
  { unfold g, GradSpec.move, normSq, vdot, vadd, vscale in *. cbn [vx vy vz] in *. auto_derive.
    - rewrite E0. done.
    - assert (0 < sqrt (vx d * vx d + vy d * vy d + vz d * vz d)) by by apply sqrt_lt_R0. rewrite E0. field. lra. }
  apply (is_derive_ext (fun t => v (g t * g t))).
  { intros t. unfold g. by rewrite sqrt_sqrt by apply normSq_nonneg. }
  assert (G0 : g 0 = sqrt (normSq d)) by (unfold g; by rewrite E0).
  pose proof (is_derive_comp (V := R_NormedModule) (fun x => v (x * x)) g 0 (l * sqrt (normSq d)) (vdot d e / sqrt (normSq d))) as HC.
  rewrite G0 in HC. eapply is_derive_eq; [apply HC; done|].
  assert (0 < sqrt (normSq d)) by by apply sqrt_lt_R0.
  change (vdot d e / sqrt (normSq d) * (l * sqrt (normSq d)) = l * vdot d e). field. lra.
Qed.

Lemma vdot_sub_r a b c : vdot a (vsub b c) = vdot a b - vdot a c.
Proof. unfold vdot, vsub. cbn [vx vy vz]. ring. Qed.
Lemma vdot_scale_l k a b : vdot (vscale k a) b = k * vdot a b.
Proof. unfold vdot, vscale. cbn [vx vy vz]. ring. Qed.
Lemma vdot_zero_l b : vdot (V3 0 0 0) b = 0.
Proof. unfold vdot. cbn [vx vy vz]. ring. Qed.
Lemma vdot_sum_l {A} (l : list A) f e : vdot (vsum_over l f) e = sum_over l (fun x => vdot (f x) e).
Proof.
  unfold vsum_over, vdot. cbn [vx vy vz]. rewrite !(Rmult_comm (sum_over _ _)), <- !sum_scale, <- !EnergyProofs.sum_plus. apply sum_ext. intros x _. ring.
Qed.
Lemma vdot_add_l a b c : vdot (vadd a b) c = vdot a c + vdot b c.
Proof. unfold vdot, vadd. cbn [vx vy vz]. ring. Qed.

(** The derivative of a function of the separations of a chain of atoms. *)
Section Terms.
  Context (y : mdsys) (cap : nat) (skin cut : R) (n : vec3 Z) (Ho : md_ok y cap skin cut n).
  Lemma y_near p q : off_faces (yB y) p q -> linear_near (yDr y) p q.
  Proof. destruct (mo_b _ _ _ _ _ Ho) as [(b & Hb & -> & ->)|(b & Hb & -> & -> & _)]; [by apply ortho_near|by apply mono_near]. Qed.

  Lemma radial_term (v : R -> R) p q e f l : off_faces (yB y) p q -> 0 < sqrt (yDr y p q).1 ->
    is_derive (fun x => v (x * x)) (sqrt (yDr y p q).1) (l * sqrt (yDr y p q).1) ->
    is_derive (fun t => v (bDist (yB y) (GradSpec.move p e t) (GradSpec.move q f t))) 0 (l * (vdot (yDr y p q).2 e - vdot (yDr y p q).2 f)).
  Proof.
    intros Hf Hr Hv. pose proof (y_near p q Hf) as Hn. rewrite (linear_val _ _ _ Hn) in Hr, Hv. rewrite <- vdot_sub_r.
    assert (Hp : 0 < normSq (yDr y p q).2).
    { destruct (Rle_lt_or_eq_dec _ _ (normSq_nonneg (yDr y p q).2)) as [|E]; [done|]. rewrite <- E, sqrt_0 in Hr. lra. }
    eapply is_derive_ext_loc; [|apply (radial_derive v _ (vsub e f) l Hp Hv)].
    generalize (Hn e f). apply (filter_imp (F := locally (0 : R))). intros t E. rewrite <- (y_dr_dist y cap skin cut n Ho), E. done.
  Qed.
  Lemma angle_term (v : R -> R) p0 p1 p2 e0 e1 e2 g1 g2 :
    off_faces (yB y) p1 p0 -> off_faces (yB y) p2 p1 ->
    let b1 := (yDr y p1 p0).2 in let b2 := (yDr y p2 p1).2 in 0 < normSq b1 -> 0 < normSq b2 ->
    is_grad2 (fun x1 x2 => v (cosine x1 x2)) b1 b2 g1 g2 ->
    is_derive (fun t => let q0 := GradSpec.move p0 e0 t in let q1 := GradSpec.move p1 e1 t in let q2 := GradSpec.move p2 e2 t in
        v (vdot (yDr y q1 q0).2 (yDr y q2 q1).2 / sqrt (bDist (yB y) q1 q0 * bDist (yB y) q2 q1))) 0
      (vdot g1 (vsub e1 e0) + vdot g2 (vsub e2 e1)).
  Proof.
    intros H1 H2 b1 b2 P1 P2 Hg. eapply is_derive_ext_loc; [|apply (Hg (vsub e1 e0) (vsub e2 e1))].
    pose proof (y_near _ _ H1 e1 e0) as N1. pose proof (y_near _ _ H2 e2 e1) as N2.
    generalize (filter_and (F := locally (0 : R)) _ _ N1 N2). apply (filter_imp (F := locally (0 : R))). intros t [E1 E2]. cbv zeta in *.
    rewrite <- !(y_dr_dist y cap skin cut n Ho), E1, E2. cbn [fst snd]. unfold cosine. by rewrite sqrt_mult by apply normSq_nonneg.
  Qed.
  Lemma dihedral_term (v : vec3 R -> vec3 R -> vec3 R -> R) p0 p1 p2 p3 e0 e1 e2 e3 g1 g2 g3 :
    off_faces (yB y) p1 p0 -> off_faces (yB y) p2 p1 -> off_faces (yB y) p3 p2 ->
    is_grad3 v (yDr y p1 p0).2 (yDr y p2 p1).2 (yDr y p3 p2).2 g1 g2 g3 ->
    is_derive (fun t => let q0 := GradSpec.move p0 e0 t in let q1 := GradSpec.move p1 e1 t in let q2 := GradSpec.move p2 e2 t in
        let q3 := GradSpec.move p3 e3 t in v (yDr y q1 q0).2 (yDr y q2 q1).2 (yDr y q3 q2).2) 0
      (vdot g1 (vsub e1 e0) + vdot g2 (vsub e2 e1) + vdot g3 (vsub e3 e2)).
  Proof.
    intros H1 H2 H3 Hg. eapply is_derive_ext_loc; [|apply (Hg (vsub e1 e0) (vsub e2 e1) (vsub e3 e2))].
    pose proof (y_near _ _ H1 e1 e0) as N1. pose proof (y_near _ _ H2 e2 e1) as N2. pose proof (y_near _ _ H3 e3 e2) as N3.
    generalize (filter_and (F := locally (0 : R)) _ _ N1 (filter_and (F := locally (0 : R)) _ _ N2 N3)). apply (filter_imp (F := locally (0 : R))).
    intros t (E1 & E2 & E3). cbv zeta in *. by rewrite E1, E2, E3.
  Qed.

  (** The work of the forces of a group. *)
  Definition chain_work (ats : list nat) (fs : list (vec3 R)) (e : nat -> vec3 R) : R :=
    sum_over (seq 0 (length fs)) (fun k => match ats !! k, ats !! S k, fs !! k with
      | Some i, Some j, Some f => vdot f (e i) - vdot f (e j) | _, _, _ => 0 end).
  Lemma group_work ats fs (l : list nat) e : NoDup l -> ats ⊆ l -> S (length fs) = length ats ->
    sum_over l (fun a => vdot (group_force ats fs a) (e a)) = chain_work ats fs e.
  Proof.
    intros Hl Hs Hlen. unfold chain_work, group_force.
    rewrite (sum_ext _ (fun a => sum_over (seq 0 (length fs)) (fun k =>
      vdot (vsub (if decide (ats !! k = Some a) then default (V3 0 0 0) (fs !! k) else V3 0 0 0)
         (if decide (ats !! S k = Some a) then default (V3 0 0 0) (fs !! k) else V3 0 0 0)) (e a)))) by (intros; apply vdot_sum_l).
    rewrite sum_swap. apply sum_ext. intros k Hk. apply elem_of_seq in Hk.
    destruct (lookup_lt_is_Some_2 ats k) as [i Ei]; [lia|]. destruct (lookup_lt_is_Some_2 ats (S k)) as [j Ej]; [lia|].
    destruct (lookup_lt_is_Some_2 fs k) as [f Ef]; [lia|]. rewrite Ei, Ej, Ef. cbn [default from_option id].
    assert (D : forall i, i ∈ l -> sum_over l (fun a => vdot (if decide (Some i = Some a) then f else V3 0 0 0) (e a)) = vdot f (e i)).
    { intros i' Hi'. rewrite (sum_one _ l i' Hl Hi').
      - by rewrite decide_True.
      - intros x _ Hx. rewrite decide_False by congruence. apply vdot_zero_l. }
    rewrite <- (D i), <- (D j), <- EnergyProofs.sum_minus.
    - apply sum_ext. intros a _. unfold vdot, vsub. cbn [vx vy vz]. unfold Datatypes.id. ring.
    - apply Hs. by eapply elem_of_list_lookup_2.
    - apply Hs. by eapply elem_of_list_lookup_2.
  Qed.

  Lemma bond_derive pos e k g : bond_smooth y pos k g ->
    is_derive (fun t => kE (fK k) (map (displaced pos e t) (gAt g)) (gTy g)) 0 (- chain_work (gAt g) (fF k (map pos (gAt g)) (gTy g)) e).
  Proof.
    intros (i & j & v & fr & -> & -> & -> & Hf & Hr & Hv). cbn [map bond_kE bond_kF]. unfold displaced.
    pose proof (radial_term (fun x => v x (gTy g)) (pos i) (pos j) (e i) (e j) (- fr (yDr y (pos i) (pos j)).1 (gTy g)) Hf Hr) as HT.
    pose proof (linear_val _ _ _ (y_near _ _ Hf)) as HL.
    eapply is_derive_eq; [apply HT|].
    - eapply is_derive_eq; [exact Hv|]. cbv zeta. assert (HS : forall x, 0 <= x -> sqrt x * sqrt x = x) by (intros; by apply sqrt_sqrt).
      rewrite HS by (rewrite HL; apply normSq_nonneg). apply Ropp_mult_distr_l.
    - destruct (yDr y (pos i) (pos j)) as [rsq d]. cbn [fst snd] in *. unfold chain_work. cbn [length seq lookup list_lookup sum_over map Rsum].
      rewrite !vdot_scale_l. ring.
  Qed.
  Lemma angle_derive pos e k g : angle_smooth y pos k g ->
    is_derive (fun t => kE (fK k) (map (displaced pos e t) (gAt g)) (gTy g)) 0 (- chain_work (gAt g) (fF k (map pos (gAt g)) (gTy g)) e).
  Proof.
    intros (i & j & l & v & f & -> & -> & -> & H1 & H2 & P1 & P2 & Hg). cbn [map angle_kE angle_kF]. unfold displaced.
    eapply is_derive_eq; [apply (angle_term (fun c => v c (gTy g)) _ _ _ _ _ _ _ _ H1 H2 P1 P2 Hg)|].
    destruct (f _ _ _) as [f1 f2]. cbn [fst snd]. unfold chain_work, sum_over. cbn [length seq lookup list_lookup map Rsum].
    rewrite !vdot_sub_r. ring.
  Qed.
  Lemma dihedral_derive pos e k g : dihedral_smooth y pos k g ->
    is_derive (fun t => kE (fK k) (map (displaced pos e t) (gAt g)) (gTy g)) 0 (- chain_work (gAt g) (fF k (map pos (gAt g)) (gTy g)) e).
  Proof.
    intros (i & j & l & m & v & f & -> & -> & -> & H1 & H2 & H3 & Hg). cbn [map dihedral_kE dihedral_kF]. unfold displaced. cbv zeta in Hg.
    destruct (f _ _ _ _) as [[f1 f2] f3].
    eapply is_derive_eq; [apply (dihedral_term (fun a b c => v a b c (gTy g)) _ _ _ _ _ _ _ _ _ _ _ H1 H2 H3 Hg)|].
    unfold chain_work, sum_over. cbn [length seq lookup list_lookup map Rsum].
    rewrite !vdot_sub_r. ring.
  Qed.

  (** The pair term. *)
  Lemma pair_derive u pos e i j : pair_smooth y u pos i j ->
    is_derive (fun t => u (bDist (yB y) (displaced pos e t i) (displaced pos e t j)) (yTy y i) (yTy y j)) 0
      (- (vdot (pair_force (yDr y) (yFr y) (yCutsq y) (pos i) (pos j) (yTy y i) (yTy y j)) (e i) -
          vdot (pair_force (yDr y) (yFr y) (yCutsq y) (pos i) (pos j) (yTy y i) (yTy y j)) (e j))).
  Proof.
    intros (Hf & Hr & Hv). unfold displaced. pose proof (linear_val _ _ _ (y_near _ _ Hf)) as HL.
    assert (HS : sqrt (yDr y (pos i) (pos j)).1 * sqrt (yDr y (pos i) (pos j)).1 = (yDr y (pos i) (pos j)).1).
    { apply sqrt_sqrt. rewrite HL. apply normSq_nonneg. }
    rewrite HS in Hv. set (rsq := (yDr y (pos i) (pos j)).1) in *.
    pose proof (radial_term (fun x => u x (yTy y i) (yTy y j)) (pos i) (pos j) (e i) (e j)
      (if Rlt_dec rsq (yCutsq y (yTy y i) (yTy y j)) then - yFr y rsq (yTy y i) (yTy y j) else 0) Hf Hr) as HT.
    eapply is_derive_eq; [apply HT|].
    - eapply is_derive_eq; [exact Hv|]. fold rsq. destruct (Rlt_dec _ _); ring.
    - unfold pair_force. unfold rsq. destruct (yDr y (pos i) (pos j)) as [q d]. cbn [fst snd] in *.
      destruct (Rlt_dec _ _); rewrite ?vdot_scale_l, ?vdot_zero_l; ring.
  Qed.
  Lemma pair_work pos e : sum_over (yAtoms y) (fun a => vdot (pair_part y pos a) (e a)) =
    sum_over (yAtoms y) (fun i => sum_over (yAtoms y) (fun j => if decide (i < j)%nat then if yMask y i j then 0 else
      vdot (pf y pos i j) (e i) - vdot (pf y pos i j) (e j) else 0)).
  Proof.
    set (h := fun i j => if yMask y i j then 0 else vdot (pf y pos i j) (e i)).
    assert (E : sum_over (yAtoms y) (fun a => vdot (pair_part y pos a) (e a)) =
      sum_over (yAtoms y) (fun i => sum_over (yAtoms y) (fun j => if decide (i < j)%nat then h i j else 0)) +
      sum_over (yAtoms y) (fun i => sum_over (yAtoms y) (fun j => if decide (j < i)%nat then h i j else 0))).
    { rewrite <- EnergyProofs.sum_plus. apply sum_ext. intros i _. rewrite <- EnergyProofs.sum_plus. unfold pair_part. rewrite vdot_sum_l.
      apply sum_ext. intros j _. unfold h, pf. destruct (decide (j = i)) as [->|Hn]; [rewrite !decide_False by lia; rewrite vdot_zero_l; ring|].
      destruct (yMask y i j); [rewrite vdot_zero_l; destruct (decide (i < j)%nat), (decide (j < i)%nat); ring|].
      destruct (decide (i < j)%nat), (decide (j < i)%nat); try lia; ring. }
    rewrite E. rewrite (sum_swap (fun i j => if decide (j < i)%nat then h i j else 0)), <- EnergyProofs.sum_plus. apply sum_ext. intros i _.
    rewrite <- EnergyProofs.sum_plus. apply sum_ext. intros j _. destruct (decide (i < j)%nat); [|ring]. unfold h. rewrite (mo_mask _ _ _ _ _ Ho j i).
    destruct (yMask y i j); [ring|]. rewrite (pf_opp y cap skin cut n Ho pos j i), !vdot_scale_l. ring.
  Qed.
End Terms.
