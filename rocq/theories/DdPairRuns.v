(** The loops of the pair potential on one processor. *)
From Verif Require Import Base Containers Vec3 BoxSpec SpeciesModel SpeciesProofs EnergySpec EnergyProofs NbrModel NbrSpec NbrExamples ExchModel ExchSpec ExchUpdSpec DdPairModel DdPairSpec.
From Coq Require Import Reals Lra.
Local Open Scope nat_scope.

(** *** The iterator *)
Lemma loop_take k : forall fuel i l it, dit_loop fuel i = Ok (Some (l, it)) -> k <= length l ->
  exists i', dit_take k i = Ok (take k l, i') /\ dit_loop (fuel - k) i' = Ok (Some (drop k l, it)).
Proof.
  induction k as [|k IH]; intros fuel i l it H Hk.
  - exists i. cbn [dit_take take drop]. by rewrite Nat.sub_0_r.
  - destruct l as [|xy l]; [cbn in Hk; lia|]. destruct fuel as [|fuel]; [done|]. cbn [dit_loop] in H. destruct (dit_end i); [done|].
    destruct (dit_pair i) as [xy'| |] eqn:Ep; [|done..]. destruct (dit_next i) as [i1| |] eqn:En; [|done..]. cbn [obind] in H.
    destruct (dit_loop fuel i1) as [[[l' it']|]| |] eqn:El; [|done..]. injection H as -> -> ->. cbn in Hk.
    destruct (IH fuel i1 l it El ltac:(lia)) as (i' & E1 & E2). exists i'. cbn [dit_take]. rewrite Ep, En. cbn [obind]. rewrite E1. cbn [obind fst snd take drop Nat.sub]. done.
Qed.
Lemma visits_length p l : visits p l -> forall l', visits p l' -> l' = l.
Proof.
  intros [H0 H] l' [_ H']. destruct (H dit_new (S (length l + length l')) H0) as (it & E & _); [lia|]. destruct (H' dit_new (S (length l + length l')) H0) as (it' & E' & _); [lia|]. congruence.
Qed.
(** A list that has been built. *)
Definition built (p : dplist) (l : list (nat * nat)) : Prop := visits p l /\ length l = length (vA2 p).
Lemma build_built capA s rev cutoff r masked p p' l : buildPairList capA s rev cutoff r masked p = Ok p' -> visits p' l -> built p' l.
Proof.
  intros H Hv. split; [done|]. unfold buildPairList in H. destruct (check _) as [[]| |]; [|done..]. cbn [obind] in H. destruct (check _) as [[]| |]; [|done..]. cbn [obind] in H.
  match type of H with (let? p := ?e in _) = _ => destruct e as [p1| |] end; [|done..]. cbn [obind] in H.
  destruct (dd_pair_iterator_correct _ _ _ _ _ _ _ H) as [Hv' E]. rewrite (visits_length _ _ Hv' _ Hv). rewrite <- E. by rewrite map_length.
Qed.
Lemma built_all p l : built p l -> all_pairs p = Ok l.
Proof. intros [[H0 H] E]. unfold all_pairs. destruct (H dit_new (S (length (vA2 p))) H0) as (it & -> & _); [lia|]. done. Qed.

Section pair.
  Context (cut2 : Z -> Z -> R) (fo u : R -> Z -> Z -> R).
  Notation p_in := (p_in cut2).
  Notation p_force := (p_force fo).

  (** *** Forces *)
  Definition alike (m m' : nat -> xatom) : Prop := forall h, exists f, m' h = put_force (m h) f.
  Lemma alike_refl m : alike m m.
  Proof. intros h. exists (xForce (m h)). by destruct (m h). Qed.
  Lemma alike_trans m m' m2 : alike m m' -> alike m' m2 -> alike m m2.
  Proof. intros H1 H2 h. destruct (H1 h) as [f E]. destruct (H2 h) as [f2 E2]. exists f2. by rewrite E2, E. Qed.
  Lemma alike_add m hf : alike m (add_force m hf).
  Proof.
    intros h. unfold add_force. destruct (decide (h = hf.1)); [by eexists|]. apply alike_refl.
  Qed.
  Lemma alike_dr m m' xy : alike m m' -> p_dr m' xy = p_dr m xy.
  Proof. intros H. unfold p_dr. destruct (H xy.1) as [f ->], (H xy.2) as [f2 ->]. done. Qed.
  Lemma alike_type m m' h : alike m m' -> xType (m' h) = xType (m h).
  Proof. intros H. by destruct (H h) as [f ->]. Qed.
  Lemma alike_in m m' xy : alike m m' -> p_in m' xy = p_in m xy.
  Proof. intros H. unfold DdPairModel.p_in, p_rsq. by rewrite (alike_dr m m' xy H), !(alike_type m m' _ H). Qed.
  Lemma alike_force m m' xy : alike m m' -> p_force m' xy = p_force m xy.
  Proof. intros H. unfold DdPairModel.p_force, p_rsq. by rewrite (alike_dr m m' xy H), !(alike_type m m' _ H). Qed.

  (** One pair: the force is subtracted from the second atom if [cond] holds. *)
  Definition fstep (cond : nat -> bool) (m : nat -> xatom) (xy : nat * nat) : nat -> xatom :=
    if p_in m xy then let m1 := add_force m (xy.1, p_force m xy) in if cond xy.2 then add_force m1 (xy.2, neg3 (p_force m xy)) else m1 else m.
  Definition fcomp (m : nat -> xatom) (xy : nat * nat) (c : nat) : R := if p_in m xy then vget (p_force m xy) c else 0%R.
  Lemma add_comp m h f k c : c < 3 -> vget (xForce (add_force m (h, f) k)) c = (vget (xForce (m k)) c + if decide (h = k) then vget f c else 0)%R.
  Proof.
    intros Hc. unfold add_force. cbn [fst snd]. destruct (decide (k = h)) as [->|Hne].
    - rewrite decide_True by done. cbn [xForce]. unfold vplus. destruct c as [|[|[|]]]; [done|done|done|lia].
    - rewrite decide_False by congruence. lra.
  Qed.
  Lemma neg3_comp f c : c < 3 -> vget (neg3 f) c = (- vget f c)%R.
  Proof. intros Hc. destruct c as [|[|[|]]]; [done|done|done|lia]. Qed.
  Lemma alike_step cond m xy : alike m (fstep cond m xy).
  Proof.
    unfold fstep. destruct (p_in m xy); [|apply alike_refl]. cbn zeta. destruct (cond xy.2); [|apply alike_add]. eapply alike_trans; apply alike_add.
  Qed.
  Lemma step_comp cond m xy k c : c < 3 ->
    vget (xForce (fstep cond m xy k)) c = (vget (xForce (m k)) c + ((if decide (xy.1 = k) then fcomp m xy c else 0) - (if cond xy.2 then if decide (xy.2 = k) then fcomp m xy c else 0 else 0)))%R.
  Proof.
    intros Hc. unfold fstep, fcomp. destruct (p_in m xy).
    - cbn zeta. destruct (cond xy.2).
      + rewrite !add_comp by done. rewrite neg3_comp by done. destruct (decide (xy.1 = k)), (decide (xy.2 = k)); lra.
      + rewrite add_comp by done. destruct (decide (xy.1 = k)); lra.
    - destruct (decide (xy.1 = k)), (cond xy.2), (decide (xy.2 = k)); lra.
  Qed.
  Lemma fold_fstep cond l : forall m, alike m (fold_left (fstep cond) l m) /\ forall k c, c < 3 ->
    vget (xForce (fold_left (fstep cond) l m k)) c =
    (vget (xForce (m k)) c + sum_over l (fun xy => (if decide (xy.1 = k) then fcomp m xy c else 0) - (if cond xy.2 then if decide (xy.2 = k) then fcomp m xy c else 0 else 0)))%R.
  Proof.
    induction l as [|xy l IH]; intros m; cbn [fold_left].
    - split; [apply alike_refl|]. intros k c Hc. rewrite sum_nil. lra.
    - destruct (IH (fstep cond m xy)) as [H1 H2]. pose proof (alike_step cond m xy) as HA. split; [by eapply alike_trans|]. intros k c Hc. rewrite H2, step_comp, sum_cons by done.
      rewrite Rplus_assoc. f_equal. f_equal. apply sum_ext. intros z _. unfold fcomp. by rewrite (alike_in _ _ z HA), (alike_force _ _ z HA).
  Qed.

  Lemma rev_fold l m : fold_left (force_rev cut2 fo) l m = fold_left (fstep (fun _ => true)) l m.
  Proof. reflexivity. Qed.
  (** A block does what the simple loop does. *)
  Lemma block_fold gh l : forall m m0, alike m0 m ->
    fold_left (force_blk gh) (map (fun xy => (xy, p_force m0 xy)) (List.filter (p_in m0) l)) m = fold_left (fstep (fun y => negb (bool_decide (y ∈ gh)))) l m.
  Proof.
    induction l as [|xy l IH]; intros m m0 H; [done|]. cbn [List.filter fold_left]. unfold fstep at 2. rewrite (alike_in m0 m xy H), (alike_force m0 m xy H).
    destruct (p_in m0 xy); [|by apply IH]. cbn [map fold_left]. unfold force_blk at 2. cbn [fst snd].
    destruct (bool_decide (xy.2 ∈ gh)); cbn [negb]; rewrite (IH _ m0); try done; [eapply alike_trans; [exact H|apply alike_add]|]. eapply alike_trans; [exact H|]. eapply alike_trans; apply alike_add.
  Qed.
  Lemma blocks_fold gh fuel : forall j i m l it k, dit_loop k i = Ok (Some (l, it)) -> j = length l -> j <= fuel ->
    force_blocks cut2 fo gh fuel j i m = Ok (fold_left (fstep (fun y => negb (bool_decide (y ∈ gh)))) l m).
  Proof.
    induction fuel as [|fuel IH]; intros j i m l it k H E Hj; cbn [force_blocks].
    - destruct l; [done|cbn in E; lia].
    - destruct (decide (j = 0)) as [E0|Hne]; [destruct l; [done|cbn in E; lia]|]. cbn zeta.
      destruct (loop_take (Nat.min 16 j) k i l it H ltac:(lia)) as (i' & E1 & E2). rewrite E1. cbn [obind fst snd].
      rewrite (IH _ i' _ (drop (Nat.min 16 j) l) it _ E2); [|by rewrite drop_length, E|lia]. f_equal. unfold force_block. rewrite block_fold by apply alike_refl.
      rewrite <- fold_left_app. by rewrite take_drop.
  Qed.
  (** All pairs of the list, in any mode. *)
  Lemma forces_list rev p l q : built p l -> computeForcesList cut2 fo rev p q = Ok (with_mem q (fold_left (fstep (fun y => rev || negb (bool_decide (y ∈ xpGhosts q)))) l (xpMem q))).
  Proof.
    intros HB. unfold computeForcesList. destruct rev.
    - rewrite (built_all p l HB). cbn [obind]. f_equal.
    - destruct HB as [[H0 H] E]. destruct (H dit_new (S (length l)) H0) as (it & EL & _); [lia|]. rewrite (blocks_fold _ _ _ _ _ l it _ EL); [|done|lia]. done.
  Qed.

  (** *** Sums *)
  Definition weight (rev : bool) (gh : list nat) (xy : nat * nat) : R := if rev || negb (bool_decide (xy.2 ∈ gh)) then 1%R else (1/2)%R.
  Lemma energy_list rev p l q : built p l -> energyList u rev p q = Ok (sum_over l (fun xy => weight rev (xpGhosts q) xy * p_energy u (xpMem q) xy)%R).
  Proof.
    intros HB. unfold energyList. rewrite (built_all p l HB). cbn [obind]. f_equal. rewrite (fold_sum_ext _ (fun xy => weight rev (xpGhosts q) xy * p_energy u (xpMem q) xy)%R); [lra|].
    intros e xy _. unfold weight. destruct rev; cbn [orb]; [lra|]. destruct (bool_decide _); cbn [negb]; lra.
  Qed.
  Lemma stress_list i j rev p l q : built p l -> stressList cut2 fo i j rev p q =
    Ok (sum_over l (fun xy => weight rev (xpGhosts q) xy * (if p_in (xpMem q) xy then vget (p_force (xpMem q) xy) i * vget (p_dr (xpMem q) xy) j else 0))%R).
  Proof.
    intros HB. unfold stressList. rewrite (built_all p l HB). cbn [obind]. f_equal.
    rewrite (fold_sum_ext _ (fun xy => weight rev (xpGhosts q) xy * (if p_in (xpMem q) xy then vget (p_force (xpMem q) xy) i * vget (p_dr (xpMem q) xy) j else 0))%R); [lra|].
    intros e xy _. destruct (p_in _ _); [|lra]. cbn zeta. unfold weight, DdPairModel.p_force. assert (HV : forall w f d, vget (vscale (w * f) d) i = (w * vget (vscale f d) i)%R) by (intros; destruct i as [|[|]]; cbn [vget vscale vx vy vz]; lra).
    rewrite HV. destruct rev; cbn [orb]; [lra|]. destruct (bool_decide _); cbn [negb]; lra.
  Qed.
  Lemma npair_list cs rev p l q : built p l -> exists N, nPairList cs rev p q = Ok N /\
    IZR N = sum_over l (fun xy => if Rlt_dec (p_rsq (xpMem q) xy) cs then if rev || negb (bool_decide (xy.2 ∈ xpGhosts q)) then 2 else 1 else 0)%R.
  Proof.
    intros HB. unfold nPairList. rewrite (built_all p l HB). cbn [obind]. eexists. split; [reflexivity|].
    assert (H : forall e, IZR (fold_left (fun e xy => if Rlt_dec (p_rsq (xpMem q) xy) cs then if rev then (e + 2)%Z else if bool_decide (xy.2 ∈ xpGhosts q) then (e + 1)%Z else (e + 2)%Z else e) l e) =
      (IZR e + sum_over l (fun xy => if Rlt_dec (p_rsq (xpMem q) xy) cs then if rev || negb (bool_decide (xy.2 ∈ xpGhosts q)) then 2 else 1 else 0))%R).
    { induction l as [|xy l IH] in HB |- *; intros e; cbn [fold_left]; [rewrite sum_nil; lra|].
      match goal with |- context [fold_left ?f l ?x] => assert (G : forall e, IZR (fold_left f l e) = (IZR e + sum_over l (fun xy => if Rlt_dec (p_rsq (xpMem q) xy) cs then if rev || negb (bool_decide (xy.2 ∈ xpGhosts q)) then 2 else 1 else 0))%R) end.
      { clear HB IH e. induction l as [|z l IH]; intros e; cbn [fold_left]; [rewrite sum_nil; lra|]. rewrite IH, sum_cons. destruct (Rlt_dec _ _); [|lra]. destruct rev; cbn [orb]; [rewrite plus_IZR; lra|]. destruct (bool_decide _); cbn [negb]; rewrite plus_IZR; lra. }
      rewrite G, sum_cons. destruct (Rlt_dec _ _); [|lra]. destruct rev; cbn [orb]; [rewrite plus_IZR; lra|]. destruct (bool_decide _); cbn [negb]; rewrite plus_IZR; lra. }
    rewrite H. lra.
  Qed.
End pair.
