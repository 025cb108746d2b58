(** Sums over waves: energy, forces and stress computed with the stored half of the waves. *)
From Coq Require Import Reals Lra.
From Coquelicot Require Import Coquelicot.
From stdpp Require Import gmap.
From Verif Require Import Base Vec3 BoxSpec OrthoModel OrthoSpec OrthoProofs OrthoProps MonoModel MonoSpec MonoProofs MonoProps.
From Verif Require Import SpeciesModel PairListModel EnergyModel EnergySpec EnergyProofs MdModel MdSpec MdProofs GradSpec MdGradSpec MdGradProofs Deriv.
From Verif Require Import EwaldModel EwaldSpec EwaldProofs.
From Coq Require Import Reals Lra.
Local Open Scope R_scope.

(** * Loops over array indices *)
Lemma foldM_index {A S} (F : S -> nat -> outcome S) (G : S -> A -> S) (l : list A) s :
  (forall i x s, l !! i = Some x -> F s i = Ok (G s x)) -> foldM F s (seq 0 (length l)) = Ok (fold_left G l s).
Proof.
  intros H. assert (forall r pre s, l = pre ++ r -> foldM F s (seq (length pre) (length r)) = Ok (fold_left G r s)) as HH.
  2:{ apply (HH l [] s). done. }
  induction r as [|x r IH]; intros pre s0 E; [done|]. cbn [length seq foldM fold_left].
  rewrite (H (length pre) x) by (rewrite E, lookup_app_r, Nat.sub_diag by lia; done). cbn [obind].
  replace (Datatypes.S (length pre)) with (length (pre ++ [x])) by (rewrite app_length; cbn; lia). apply IH. by rewrite E, <- app_assoc.
Qed.
Lemma lookup_map {A B} (f : A -> B) l i x : l !! i = Some x -> map f l !! i = Some (f x).
Proof. intros H. pose proof (list_lookup_fmap f l i) as E. change (f <$> l) with (map f l) in E. by rewrite E, H. Qed.
Lemma aget_map {A B} (f : A -> B) l i x : l !! i = Some x -> aget (map f l) i = Ok (f x).
Proof. intros H. by apply aget_Ok, lookup_map. Qed.

(** * Phases *)
Lemma cis_add x y : Cmult (cis x) (cis y) = cis (x + y).
Proof. unfold cis, Cmult. cbn [fst snd]. rewrite Rmult_plus_distr_l, cos_plus, sin_plus. f_equal; ring. Qed.
Lemma fexp_lookup x n : forall b i, (i < n)%nat -> fexp (cis (x * IZR b)) (cis x) n !! i = Some (cis (x * IZR (b + Z.of_nat i))).
Proof.
  induction n as [|n IH]; intros b i Hi; [lia|]. cbn [fexp]. destruct i as [|i]; [cbn; by rewrite Z.add_0_r|].
  cbn [lookup list_lookup]. rewrite cis_add. replace (x * IZR b + x) with (x * IZR (b + 1)) by (rewrite plus_IZR; ring).
  change (list_lookup i (fexp (cis (x * IZR (b + 1))) (cis x) n)) with (fexp (cis (x * IZR (b + 1))) (cis x) n !! i).
  rewrite IH by lia. do 3 f_equal. f_equal. lia.
Qed.
Lemma ftable_get x b u k : (b <= k <= u)%Z -> zget (ftable x b (u - b + 1)) (k - b) = Ok (cis (x * IZR k)).
Proof.
  intros H. unfold zget, ftable. rewrite decide_True by lia. apply aget_Ok. rewrite fexp_lookup by lia. do 3 f_equal. f_equal. lia.
Qed.

(** * Vectors *)
Lemma combo_lin a u v : combo a (vadd u v) = vadd (combo a u) (combo a v).
Proof. unfold combo, vadd, vscale. cbn [vx vy vz]. f_equal; ring. Qed.
Lemma combo_scale a c v : combo a (vscale c v) = vscale c (combo a v).
Proof. unfold combo, vadd, vscale. cbn [vx vy vz]. f_equal; ring. Qed.
Lemma fold_vsum {A} (f : A -> vec3 R) l : forall s, fold_left (fun s x => vadd s (f x)) l s = vadd s (vsum_over l f).
Proof.
  induction l as [|x l IH]; intros s; cbn [fold_left].
  - unfold vsum_over, vadd. cbn [vx vy vz]. rewrite !sum_nil. destruct s as [a b c]. cbn [vx vy vz]. f_equal; ring.
  - rewrite IH. unfold vsum_over, vadd. cbn [vx vy vz]. rewrite !sum_cons. f_equal; ring.
Qed.
Lemma combo_sum {A} a (f : A -> vec3 R) l : combo a (vsum_over l f) = vsum_over l (fun x => combo a (f x)).
Proof.
  induction l as [|x l IH].
  - unfold vsum_over, combo, vadd, vscale. cbn [vx vy vz]. rewrite !sum_nil. f_equal; ring.
  - assert (S : forall (g : A -> vec3 R), vsum_over (x :: l) g = vadd (g x) (vsum_over l g)) by (intros; unfold vsum_over, vadd; cbn [vx vy vz]; by rewrite !sum_cons).
    by rewrite !S, combo_lin, IH.
Qed.
Lemma vadd_0_l v : vadd OrthoModel.vzero v = v.
Proof. destruct v as [a b c]. unfold vadd, OrthoModel.vzero. cbn [vx vy vz]. f_equal; ring. Qed.

Section Sums.
  Context (e : ewald) (kb : kbox) (kc : R) (w : waves) (D : dual_box kb) (W : waves_of e kb kc w).
  Context (atoms : list nat) (charge : nat -> R).
  Local Notation kv := (wavevector kb).

  Definition cmode (pos : nat -> vec3 R) (k : vec3 R) : R := sum_over atoms (fun a => charge a * cos (vdot k (pos a))).
  Definition smode (pos : nat -> vec3 R) (k : vec3 R) : R := sum_over atoms (fun a => charge a * sin (vdot k (pos a))).

  Lemma kcharge_eq pos : kcharge kb atoms charge w pos = map (fun n => (cmode pos (kv n), smode pos (kv n))) (wInt w).
  Proof using D.
    unfold kcharge, cmode, smode. assert (forall l (h : vec3 Z -> Complex.C),
      fold_left (fun rho a => zip_with (fun (q : vec3 Z) (r : Complex.C) =>
        Cplus r (charge a * cos (vdot (kGen kb (pos a)) (vmap IZR q) * (2 * PI)), charge a * sin (vdot (kGen kb (pos a)) (vmap IZR q) * (2 * PI)))) (wInt w) rho) l (map h (wInt w)) =
      map (fun n => (fst (h n) + sum_over l (fun a => charge a * cos (vdot (kv n) (pos a))), snd (h n) + sum_over l (fun a => charge a * sin (vdot (kv n) (pos a))))) (wInt w)) as H.
    { induction l as [|a l IH]; intros h; cbn [fold_left].
      - apply map_ext. intros n. rewrite !sum_nil, !Rplus_0_r. by destruct (h n).
      - assert (Z : forall k : list (vec3 Z), zip_with (fun (q : vec3 Z) (r : Complex.C) =>
          Cplus r (charge a * cos (vdot (kGen kb (pos a)) (vmap IZR q) * (2 * PI)), charge a * sin (vdot (kGen kb (pos a)) (vmap IZR q) * (2 * PI)))) k (map h k) =
          map (fun q => Cplus (h q) (charge a * cos (vdot (kv q) (pos a)), charge a * sin (vdot (kv q) (pos a)))) k).
        { induction k as [|q k IHk]; [done|]. cbn [map zip_with]. rewrite IHk. by rewrite !(phase _ D). }
        rewrite Z, IH. apply map_ext. intros n. rewrite !sum_cons. unfold Cplus. cbn [fst snd]. f_equal; ring. }
    replace (replicate (length (wInt w)) (RtoC 0)) with (map (fun _ : vec3 Z => RtoC 0) (wInt w)).
    2:{ generalize (wInt w) as k. induction k as [|x k IHk]; [reflexivity|]. cbn [map length replicate]. apply (f_equal (cons _)), IHk. }
    rewrite H. apply map_ext. intros n. unfold RtoC. cbn [fst snd]. by rewrite !Rplus_0_l.
  Qed.

  Lemma energy_eq pos : computeEnergy e kb atoms charge w pos = Ok
    (sum_over (wInt w) (fun n => kSpacePotential e (normSq (kv n)) * density2 atoms charge pos (kv n)) / kVol kb -
     sum_over atoms (fun a => charge a * charge a) * (eAlpha e / (4 * sqrt PI * PI * eEps e))).
  Proof using D W.
    unfold computeEnergy. rewrite kcharge_eq, (wo_g _ _ _ _ W).
    rewrite (foldM_index _ (fun en n => en + kSpacePotential e (normSq (kv n)) * density2 atoms charge pos (kv n)) (wInt w) 0).
    2:{ intros i n s Hi. rewrite !(aget_map _ _ _ _ Hi). cbn [obind fst snd]. f_equal. unfold density2. fold (cmode pos (kv n)). fold (smode pos (kv n)). ring. }
    cbn [obind]. by rewrite !fold_sum, !Rplus_0_l.
  Qed.

  (** The force on one atom. *)
  Definition kf (pos : nat -> vec3 R) (a : nat) : vec3 R :=
    vscale (- 2 * charge a / kVol kb) (vsum_over (wInt w) (fun n =>
      vscale (kSpacePotential e (normSq (kv n)) * (cos (vdot (kv n) (pos a)) * smode pos (kv n) - sin (vdot (kv n) (pos a)) * cmode pos (kv n))) (kv n))).
  Lemma kforce_eq pos a : kforce kb w (kcharge kb atoms charge w pos) (pos a) (charge a) = Ok (kf pos a).
  Proof using D W.
    unfold kforce, kforce_gen. rewrite kcharge_eq, (wo_g _ _ _ _ W). set (rg := kGen kb (pos a)).
    rewrite (foldM_index _ (fun fg n => vadd fg (vscale (kSpacePotential e (normSq (kv n)) *
      (cos (vdot (kv n) (pos a)) * smode pos (kv n) - sin (vdot (kv n) (pos a)) * cmode pos (kv n))) (vmap IZR n))) (wInt w) OrthoModel.vzero).
    2:{ intros i n s Hi. rewrite !(aget_map _ _ _ _ Hi). rewrite (proj2 (aget_Ok _ _ _) Hi). cbn [obind].
        assert (Hn : n ∈ wInt w) by (by eapply elem_of_list_lookup_2). pose proof (wo_rng _ _ _ _ W n Hn) as (R0 & R1 & R2).
        pose proof (proj1 (wo_in _ _ _ _ W n) Hn) as [Hh _]. assert (0 <= vx n)%Z by (unfold half in Hh; lia).
        rewrite !ftable_get by lia. cbn [obind]. rewrite !cis_add. f_equal. f_equal. f_equal. f_equal. unfold cis. cbn [fst snd].
        replace (2 * PI * (vx rg * IZR (vx n) + vy rg * IZR (vy n) + vz rg * IZR (vz n))) with (vdot (kv n) (pos a)); [done|].
        rewrite <- (phase _ D n (pos a)). fold rg. unfold vdot, vmap. cbn [vx vy vz]. ring. }
    cbn [obind]. f_equal. rewrite fold_vsum, vadd_0_l, combo_scale, combo_sum. unfold kf. f_equal. unfold vsum_over.
    f_equal; apply sum_ext; intros n _; by rewrite combo_scale.
  Qed.

  Lemma kf_zero pos a : charge a = 0 -> kf pos a = V3 0 0 0.
  Proof. intros H. unfold kf, vscale. rewrite H. cbn [vx vy vz]. unfold Rdiv. f_equal; ring. Qed.

  Lemma addForces_eq pos F : NoDup atoms -> real_charges atoms charge ->
    exists F2, addForces kb atoms charge w pos F = Ok F2 /\ (forall a, a ∈ atoms -> F2 a = vadd (F a) (kf pos a)) /\ (forall a, a ∉ atoms -> F2 a = F a).
  Proof using D W.
    unfold addForces. pose proof (kforce_eq pos) as KE. revert KE. generalize (kcharge kb atoms charge w pos) as rho. generalize (kf_zero pos). generalize (kf pos) as f. intros f KZ rho KE.
    intros Hnd Hr. revert F. induction atoms as [|a l IH]; intros F.
    { exists F. split; [done|]. split; [|done]. intros b Hb. by apply elem_of_nil in Hb. }
    apply NoDup_cons in Hnd as [Hna Hnd]. cbn [foldM].
    assert (Hr' : real_charges l charge) by (intros b Hb; apply Hr; by right). specialize (IH Hnd Hr').
    destruct (Rlt_dec (/ 10 ^ 10) (Rabs (charge a))) as [Hc|Hc].
    - rewrite KE. cbn [obind]. destruct (IH (PairListModel.move F a (vadd (F a) (f a)))) as (F2 & E & H1 & H2). exists F2. split; [done|]. split.
      + intros b Hb. apply elem_of_cons in Hb as [->|Hb].
        * rewrite H2 by done. unfold PairListModel.move. by rewrite decide_True.
        * rewrite H1 by done. unfold PairListModel.move. rewrite decide_False; [done|]. by intros ->.
      + intros b Hb. apply not_elem_of_cons in Hb as [Hb Hb2]. rewrite H2 by done. unfold PairListModel.move. by rewrite decide_False.
    - cbn [obind]. destruct (IH F) as (F2 & E & H1 & H2). exists F2. split; [done|]. split.
      + intros b Hb. apply elem_of_cons in Hb as [->|Hb]; [|by apply H1]. rewrite H2 by done.
        destruct (Hr a ltac:(left)) as [Hz|]; [|done]. rewrite KZ by done. destruct (F a) as [x y z]. unfold vadd. cbn [vx vy vz]. f_equal; ring.
      + intros b Hb. apply not_elem_of_cons in Hb as [Hb Hb2]. by rewrite H2.
  Qed.
End Sums.
