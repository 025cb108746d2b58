(** Property C106, continued: detailed balance of reptation, and where it fails. *)
From Coq Require Import Reals Lra.
From Coquelicot Require Import Coquelicot.
From stdpp Require Import gmap.
From Verif Require Import Base Vec3 BoxSpec OrthoModel OrthoSpec OrthoProofs OrthoProps MonoModel MonoSpec MonoProofs MonoProps.
From Verif Require Import McCellModel DomainModel DomainProofs SpeciesModel SpeciesProofs SpeciesBuild.
From Verif Require Import CellListModel CellListSpec CellListProofs CellListProps PairListModel PairListSpec PairListProofs PairListProps.
From Verif Require Import EnergyModel EnergySpec EnergyProofs MoveModel MoveSpec MoveProofs EnergyProps MoveProps BalanceSpec BalanceProps.
From Verif Require Import MdModel MdForces CfbModel CfbSpec CfbProofs CfbSteps CfbProps ReptModel ReptSpec ReptProofs ReptSteps ReptProps.
From Coq Require Import Reals Lra.
Local Open Scope R_scope.

(** C106: the move can be undone: a reptation in the other direction puts all atoms but the first back. *)
Theorem reptate_back : forall T c (f : nat -> T) x y a, NoDup c -> (2 <= length c)%nat ->
  reptated (rev c) (reptated c f x) y a = if decide (a = nth_atom c 0) then y else f a.
Proof.
  intros T c f x y a Hcd Hn.
  assert (NoDup (rev c)) as Hrd by (apply NoDup_ListNoDup, List.NoDup_rev; by apply NoDup_ListNoDup).
  assert (forall j, (j < length c)%nat -> nth_atom (rev c) j = nth_atom c (length c - 1 - j)) as E.
  { intros j Hj. unfold nth_atom. rewrite rev_nth by done. f_equal. lia. }
  destruct (decide (a ∈ c)) as [Ha|Ha].
  - destruct (at_of c a Ha) as (i & Hi & ->). 
    replace (nth_atom c i) with (nth_atom (rev c) (length c - 1 - i)) at 1 by (rewrite E by lia; f_equal; lia).
    rewrite rep_at by (done || rewrite rev_length; lia). rewrite rev_length. destruct (decide (S (length c - 1 - i) < length c)%nat).
    + rewrite E by lia. rewrite rep_at by (done || lia). rewrite decide_True by lia. rewrite decide_False by (apply at_ne; done || lia). do 2 f_equal. lia.
    + rewrite decide_True; [done|]. f_equal. lia.
  - rewrite rep_out, rep_out; [|done|]. 2:{ rewrite elem_of_list_In, <- in_rev, <- elem_of_list_In. done. }
    rewrite decide_False; [done|]. intros ->. apply Ha, nth_elem. lia.
Qed.

Section Homo.
  Context (dist2 : vec3 R -> vec3 R -> R) (u : R -> Z -> Z -> R) (ext : option (vec3 R -> Z -> R)) (masked : nat -> nat -> bool) (bonded : bool).
  Context (Hd : forall r q, dist2 r q = dist2 q r) (Hu : forall r t1 t2, u r t1 t2 = u r t2 t1).
  Context (atoms c : list nat) (HA : NoDup atoms) (Hcd : NoDup c) (HcA : c ⊆ atoms) (Hn : (2 <= length c)%nat) (Hmask : chain_masks bonded masked c).
  Local Notation E := (site_energy dist2 masked u ext).
  Local Notation tail := (nth_atom c 0).
  Local Notation head := (nth_atom c (length c - 1)).
  Lemma homo_types (ty : nat -> Z) (t : Z) a : (forall b, b ∈ c -> ty b = t) -> reptated c ty (ty head) a = ty a.
  Proof.
    intros H. destruct (decide (a ∈ c)) as [Ha|Ha]; [|by apply rep_out]. destruct (at_of c a Ha) as (i & Hi & ->). rewrite rep_at by done.
    rewrite (H (nth_atom c i)) by done. case_decide; apply H, nth_elem; lia.
  Qed.
  Lemma homo_rest pos q (ty : nat -> Z) (t : Z) : (forall b, b ∈ c -> ty b = t) -> E (without atoms head) (reptated c pos q) ty = E (without atoms tail) pos ty.
  Proof.
    intros Ht. apply (relabel dist2 u ext (nxt c)); [by apply without_nodup|by apply nxt_perm_without| |apply Hmask|apply Hmask|done|done|..].
    - intros x y _ _. by apply nxt_inj.
    - intros a [_ Ha]%without_in. rewrite rep_nxt by done. rewrite decide_False; [done|]. by rewrite nxt_tail.
    - intros a _. destruct (decide (a ∈ c)) as [Ha|Ha]; [|by rewrite nxt_out]. rewrite !Ht; [done|by apply nxt_in|done].
    - intros a b [_ Ha]%without_in [_ Hb]%without_in. by apply (mask_shift c Hcd Hn bonded).
  Qed.
End Homo.

Lemma weight_pos beta es : es <> [] -> 0 < weight_of beta es.
Proof.
  destruct es as [|e es]; [done|]. intros _. unfold weight_of. rewrite sum_cons. assert (0 <= sum_over es (fun e => exp (- beta * e))); [|pose proof (exp_pos (- beta * e)); lra].
  induction es as [|x es IH]; [rewrite sum_nil; lra|]. rewrite sum_cons. pose proof (exp_pos (- beta * x)). lra.
Qed.
Lemma weight_ext {T} beta (f g : T -> R) l : (forall x, f x = g x) -> weight_of beta (map f l) = weight_of beta (map g l).
Proof. intros H. f_equal. by apply map_ext. Qed.

(** C106: for chains of atoms of one type, moves in the two directions balance, for any sets of trial positions: the Boltzmann weight of a configuration,
    times the probability of choosing the trial position [q] of the head, times the probability that the move is accepted, equals the same product for the move
    back, in which the chain is read in the other direction, the old tail is put back at its place, and the sets of trial positions are the same.  [forward] and [backward] are
    the ratios of [reptate_weights]. *)
Theorem reptate_balance :
  forall dist2 u ext masked bonded beta atoms c old ty t q qs ps p p',
  (forall r x, dist2 r x = dist2 x r) -> (forall r t1 t2, u r t1 t2 = u r t2 t1) ->
  NoDup atoms -> NoDup c -> c ⊆ atoms -> (2 <= length c)%nat -> chain_masks bonded masked c -> (forall a, a ∈ c -> ty a = t) ->
  let E := site_energy dist2 masked u ext in
  let tail := nth_atom c 0 in
  let head := nth_atom c (length c - 1) in
  let new := reptated c old q in
  q ∈ qs -> old tail ∈ ps ->
  (* Weights of a move of the chain [d] from [pos], and its ratio. *)
  let grow := fun d pos set => weight_of beta (map (fun x => E atoms (reptated d pos x) (reptated d ty (ty (nth_atom d (length d - 1)))) - E (without atoms (nth_atom d 0)) pos ty) set) in
  let shrink := fun d pos set => weight_of beta (map (fun x => E atoms (move pos (nth_atom d 0) x) ty - E (without atoms (nth_atom d 0)) pos ty) set) in
  let forward := exp (- beta * (E (without atoms head) new ty - E (without atoms tail) old ty)) * grow c old qs / shrink c old ps in
  let backward := exp (- beta * (E (without atoms tail) old ty - E (without atoms head) new ty)) * grow (rev c) new ps / shrink (rev c) new qs in
  prob (metropolis forward) p -> prob (metropolis backward) p' ->
  exp (- beta * E atoms old ty) * (exp (- beta * (E atoms new ty - E (without atoms tail) old ty)) / grow c old qs) * p =
  exp (- beta * E atoms new ty) * (exp (- beta * (E atoms old ty - E (without atoms head) new ty)) / grow (rev c) new ps) * p'.
Proof.
  intros dist2 u ext masked bonded beta atoms c old ty t q qs ps p p' Hd Hu HA Hcd HcA Hn Hmask Ht E tail head new Hq Ho grow shrink forward backward Hp Hp'.
  assert (forall j, (j < length c)%nat -> nth_atom (rev c) j = nth_atom c (length c - 1 - j)) as Er.
  { intros j Hj. unfold nth_atom. rewrite rev_nth by done. f_equal. lia. }
  assert (nth_atom (rev c) 0 = head) as Er0 by (rewrite Er by lia; unfold head; f_equal; lia).
  assert (NoDup (rev c)) as Hrd by (apply NoDup_ListNoDup, List.NoDup_rev; by apply NoDup_ListNoDup).
  assert (forall a, a ∈ rev c -> ty a = t) as Htr. { intros a Ha. apply Ht. rewrite elem_of_list_In, <- in_rev, <- elem_of_list_In in Ha. done. }
  pose proof (homo_rest dist2 u ext masked bonded Hd Hu atoms c HA Hcd HcA Hn Hmask old q ty t Ht) as EJ. fold E new tail head in EJ.
  assert (grow (rev c) new ps = shrink c old ps) as E1.
  { unfold grow, shrink. apply weight_ext. intros x. rewrite Er0. fold tail. rewrite EJ. f_equal. apply site_ext; [| |done].
    - intros a _. unfold new. rewrite reptate_back by done. unfold move. done.
    - intros a _. apply (homo_types (rev c) Hrd ltac:(rewrite rev_length; lia) ty t a Htr). }
  assert (shrink (rev c) new qs = grow c old qs) as E2.
  { unfold grow, shrink. apply weight_ext. intros x. rewrite Er0. fold tail head. rewrite EJ. f_equal. apply site_ext; [| |done].
    - intros a _. unfold move. destruct (decide (a = head)) as [->|Ha].
      + unfold head. rewrite rep_at by (done || lia). by rewrite decide_False by lia.
      + unfold new. rewrite !rep_nxt by done. fold tail. rewrite !decide_False; [done|..]; intros H; apply Ha; by apply (nxt_tail c Hcd Hn).
    - intros a _. symmetry. by apply (homo_types c Hcd Hn ty t a Ht). }
  assert (0 < grow c old qs) as HWn. { apply weight_pos. destruct qs; [by apply elem_of_nil in Hq|done]. }
  assert (0 < shrink c old ps) as HWo. { apply weight_pos. destruct ps; [by apply elem_of_nil in Ho|done]. }
  unfold forward in Hp. unfold backward in Hp'. rewrite E1, E2 in Hp'. rewrite E1. rewrite EJ in *.
  set (X := E (without atoms tail) old ty) in *. set (Wn := grow c old qs) in *. set (Wo := shrink c old ps) in *.
  rewrite Rminus_diag_eq, Rmult_0_r, exp_0, Rmult_1_l in Hp, Hp' by done.
  destruct (metropolis_detailed_balance 0 0 0 Wo Wn HWo HWn) as (a & a' & Ha & Ha' & Eq).
  assert (boltzmann 0 (0 - 0) = 1) as E0'. { unfold boltzmann. rewrite <- exp_0. f_equal. ring. } rewrite E0', !Rmult_1_l in Ha, Ha'.
  assert (a = p) as <-. { transitivity (RInt (fun r => if metropolis (Wn / Wo) r then 1 else 0) 0 1); [symmetry|]; by apply is_RInt_unique. }
  assert (a' = p') as <-. { transitivity (RInt (fun r => if metropolis (Wo / Wn) r then 1 else 0) 0 1); [symmetry|]; by apply is_RInt_unique. }
  assert (exp (- 0 * 0) = 1) as E0. { rewrite <- exp_0. f_equal. ring. } rewrite E0 in Eq.
  assert (exp (- beta * E atoms old ty) * exp (- beta * (E atoms new ty - X)) = exp (- beta * E atoms new ty) * exp (- beta * (E atoms old ty - X))) as EE.
  { rewrite <- !exp_plus. f_equal. ring. }
  assert (a = Wn * a' / Wo) as ->. { apply (Rmult_eq_reg_l Wo); [|lra]. field_simplify; lra. }
  transitivity (exp (- beta * E atoms old ty) * exp (- beta * (E atoms new ty - X)) * a' / Wo); [field; lra|]. rewrite EE. field. lra.
Qed.

(** C106 is false with an angle potential: the type of the angle is read from a bond, so that with bonds of type [t] two potentials that agree for angles of
    type [t] cannot be told apart, whatever the types of the angles of the species are. *)
Theorem reptate_angle_type_refuted :
  forall M toGen dist2 wrap sep u (v v' : R -> Z -> R) ext beta bonded mk mol t tys plus dels draw bs k z s,
  (forall x, v x t = v' x t) ->
  let run := fun v => rp_move M toGen dist2 wrap sep u (Some v) ext beta bonded mk mol (replicate (length mol - 1) t) tys plus dels draw bs k z s in
  run v = run v'.
Proof.
  intros M toGen dist2 wrap sep u v v' ext beta bonded mk mol t tys plus dels draw bs k z s Hv run. unfold run, rp_move. clear run.
  set (ok := fun d : option (vec3 R * Z) => match d with Some (_, t') => t' = t | None => True end).
  assert (forall s mk e b d, ok d -> rp_energy M toGen dist2 u (Some v) ext s mk e b d = rp_energy M toGen dist2 u (Some v') ext s mk e b d) as HE.
  { intros s0 mk0 e b d H. unfold rp_energy. destruct d as [[d t']|]; [|done]. cbn in H. subst t'. by rewrite Hv. }
  assert (forall s mk e p d bs, ok d -> rp_delete M toGen dist2 wrap sep u (Some v) ext beta s mk e p d bs = rp_delete M toGen dist2 wrap sep u (Some v') ext beta s mk e p d bs) as HD.
  { intros s0 mk0 e p d bs0 H. unfold rp_delete. cbv zeta. rewrite HE by done. destruct (rp_energy _ _ _ _ _ _ _ _ _ _ _); [|done..]. cbn [obind].
    apply foldM_ext. intros x b _. by rewrite HE. }
  assert (forall s mk e p d len bs k, ok d -> rp_add M toGen dist2 wrap u (Some v) ext beta s mk e p d len bs k = rp_add M toGen dist2 wrap u (Some v') ext beta s mk e p d len bs k) as HD2.
  { intros s0 mk0 e p d len bs0 k0 H. unfold rp_add. cbv zeta. erewrite foldM_ext; [reflexivity|]. intros x b _. cbv beta. by rewrite HE. }
  assert (forall i t', aget (replicate (length mol - 1) t) i = Ok t' -> t' = t) as Hb.
  { intros i t' H. unfold aget in H. destruct (replicate _ t !! i) eqn:E; [|done]. injection H as <-. by apply lookup_replicate_1 in E as [-> _]. }
  set (c := if plus then mol else rev mol).
  destruct (aget c 0) as [tail| |]; [|done..]. cbn [obind]. destruct (aget c 1) as [nb| |]; [|done..]. cbn [obind].
  destruct (aget c (length mol - 1)) as [head| |]; [|done..]. cbn [obind].
  set (ud := if decide (3 <= length mol)%nat then _ else _).
  assert (forall d, ud = Ok d -> ok d) as Hud.
  { unfold ud. intros d. destruct (decide _); [|intros [= <-]; done]. destruct (aget c 2); [|done..]. cbn [obind].
    destruct (aget (replicate _ t) _) as [t'| |] eqn:Et; [|done..]. cbn [obind]. intros [= <-]. cbn. by apply Hb in Et. }
  destruct ud as [d| |]; [|done..]. cbn [obind]. rewrite HD by (by apply Hud). destruct (rp_delete _ _ _ _ _ _ _ _ _ _ _ _ _ _ _) as [[s1 w]| |]; [|done..]. cbn [obind].
  destruct (cl_delete _ _) as [l1| |]; [|done..]. cbn [obind]. destruct (aget (replicate _ t) _) as [tb| |]; [|done..]. cbn [obind].
  set (s2 := set_type _ _ _). set (ua := if decide (3 <= length mol)%nat then _ else _).
  assert (forall d, ua = Ok d -> ok d) as Hua.
  { unfold ua. intros d'. destruct (decide _); [|intros [= <-]; done]. destruct (aget c (length mol - 2)); [|done..]. cbn [obind].
    destruct (aget (replicate _ t) _) as [t'| |] eqn:Et; [|done..]. cbn [obind]. intros [= <-]. cbn. by apply Hb in Et. }
  destruct ua as [d'| |]; [|done..]. cbn [obind]. rewrite HD2 by (by apply Hua). done.
Qed.

(** ** Chains of two types *)
Definition hx_u (r : R) (t1 t2 : Z) : R := if Rlt_dec r 9 then IZR (t1 * t2) else 0.
Lemma hx_ix : interaction_ok 3 hx_u.
Proof. split; [lra|]. split; intros; unfold hx_u; [destruct (Rlt_dec _ _); lra|by rewrite Z.mul_comm]. Qed.
Lemma hx_built ty : exists s, synced 61 4 (cartToGen ex_box) (oLen ex_box) 3 (V3 3 3 3)%Z [0; 1]%nat s /\ (forall a, a ∈ [0; 1]%nat -> sPos s a = cx_pos a) /\ (forall a, sTy s a = ty a).
Proof.
  destruct cx_boundary as [_ HB].
  destruct (mc_energy_correct 61 4 (ortho_bd ex_box) (fun _ _ => false) hx_u 3 [] None (V3 3 3 3)%Z (seq 0 2) (MC cx_pos ty (cl_new 4)))
    as (s & E & Hs & HP & HT & _); [lia|done|apply hx_ix|apply rx_grid|apply NoDup_seq|done| |apply few_not_crowded; rewrite seq_length; lia|].
  { intros a Ha%elem_of_seq. cbn [sPos]. split; [lia|]. apply box_near. destruct a as [|[|[|]]]; intros [|[|[|]]] Hi; cbn; (lra || lia). }
  exists s. split; [done|]. split; [|done]. intros a Ha. rewrite HP. cbn [ortho_bd bWrap]. rewrite decide_True by done. cbn [sPos]. destruct a as [|[|[|]]]; apply rx_shift; lra.
Qed.
Lemma hx_two m pos ty : m 0%nat 1%nat = false -> site_energy (distanceSq ex_box) m hx_u None [0; 1]%nat pos ty = hx_u (distanceSq ex_box (pos 0%nat) (pos 1%nat)) (ty 0%nat) (ty 1%nat).
Proof.
  intros Hm. unfold site_energy, pair_energy, external_energy. rewrite !sum_cons, !sum_nil. rewrite Hm. repeat (case_decide; try lia). ring.
Qed.
Lemma hx_one m pos ty a : site_energy (distanceSq ex_box) m hx_u None [a] pos ty = 0.
Proof. unfold site_energy, pair_energy, external_energy. rewrite !sum_cons, !sum_nil. rewrite decide_False by lia. ring. Qed.
Lemma hx_no r t : hx_u r 0 t = 0.
Proof. unfold hx_u. by destruct (Rlt_dec _ _). Qed.
Lemma hx_masks mk c : (forall a b, mask_of mk a b = false) -> chain_masks false (mask_of mk) c.
Proof. intros H. split; [intros; by rewrite !H|]. intros i b Hi. rewrite H. split; [done|by intros [? _]]. Qed.
Lemma hx_nodup : NoDup [0; 1]%nat.
Proof. apply (bool_decide_eq_true_1 (NoDup _)). reflexivity. Qed.


Lemma hx_step (plus : bool) mk s x :
  synced 61 4 (cartToGen ex_box) (oLen ex_box) 3 (V3 3 3 3)%Z [0; 1]%nat s -> (forall a b, mask_of mk a b = false) ->
  sPos s 0%nat = V3 x 1 1 -> sPos s 1%nat = V3 (x + 1) 1 1 -> 1 <= x <= 5 -> sTy s 0%nat = 0%Z -> sTy s 1%nat = 1%Z ->
  let d := if plus then 1 else -1 in
  let r := if plus then exp (-1) else 1 in
  exists s' mk', rp_move 61 (cartToGen ex_box) (distanceSq ex_box) (shift1 ex_box) (fun r q => (distanceSq_dr ex_box r q).2) hx_u None None 1 false
      mk [0; 1]%nat [0]%Z [0; 1]%Z plus [] (fun _ => 1) [V3 (- d) 0 0] 0%nat 0 s = Ok (r, s', mk', true) /\
    synced 61 4 (cartToGen ex_box) (oLen ex_box) 3 (V3 3 3 3)%Z [0; 1]%nat s' /\ (forall a b, mask_of mk' a b = false) /\
    sPos s' 0%nat = V3 (x + d) 1 1 /\ sPos s' 1%nat = V3 (x + 1 + d) 1 1 /\ (forall a, sTy s' a = sTy s a).
Proof.
  intros Hs Hm H0 H1 Hx T0 T1 d r. destruct cx_boundary as [_ HB].
  destruct (reptate_weights 61 4 (ortho_bd ex_box) (fun r q => (distanceSq_dr ex_box r q).2) hx_u 3 None 1 false (V3 3 3 3)%Z [0; 1]%nat mk [0; 1]%nat 0%Z plus []
    (fun _ => 1) [V3 (- d) 0 0] 0%nat (V3 (- d) 0 0) 0 s) as (s' & mk' & E & HP & HT & Hmk & Hs').
  - lia.
  - done.
  - apply hx_ix.
  - apply rx_grid.
  - apply hx_nodup.
  - done.
  - done.
  - apply hx_nodup.
  - cbn. lia.
  - by apply hx_masks.
  - done.
  - intros b Hb. by apply elem_of_nil in Hb.
  - intros b ->%elem_of_list_singleton. apply box_near. intros i Hi. unfold d. destruct plus; cbn; rewrite ?H0, ?H1; destruct i as [|[|[|]]]; cbn; lia || lra.
  - intros i _. apply few_not_crowded. cbn. lia.
  - cbn [ortho_bd bGen bDist bWrap bLens] in *.
    change (map (sTy s) [0; 1]%nat) with [sTy s 0%nat; sTy s 1%nat] in E. rewrite T0, T1 in E. change (replicate (length [0; 1]%nat - 1) 0%Z) with [0%Z] in E.
    assert (shift1 ex_box (vadd (sPos s (if plus then 1 else 0)%nat) (vscale (-1) (vscale 1 (V3 (- d) 0 0)))) = V3 (if plus then x + 1 + d else x + d) 1 1) as Eq.
    { transitivity (shift1 ex_box (V3 (if plus then x + 1 + d else x + d) 1 1)); [|apply rx_shift; unfold d; destruct plus; lra]. f_equal.
      destruct plus; [rewrite H1|rewrite H0]; unfold vadd, vscale; cbn; f_equal; ring. }
    set (ratio := exp _ * _ / _) in E, HP. assert (ratio = r) as Er.
    { unfold ratio, weight_of. cbn [map]. rewrite !sum_cons, !sum_nil. clear ratio E HP.
      destruct plus; cbn [rev app length nth_atom nth Nat.sub]; unfold d, r.
      - change (without [0; 1]%nat 0%nat) with [1%nat]. change (without [0; 1]%nat 1%nat) with [0%nat].
        rewrite !hx_one, !hx_two by apply Hm.
        change (reptated [0; 1]%nat (sTy s) (sTy s 1%nat) 0%nat) with (sTy s 1%nat). change (reptated [0; 1]%nat (sTy s) (sTy s 1%nat) 1%nat) with (sTy s 1%nat).
        rewrite T0, T1, hx_no. set (q := shift1 ex_box _). change (reptated [0; 1]%nat (sPos s) q 0%nat) with (sPos s 1%nat).
        change (reptated [0; 1]%nat (sPos s) q 1%nat) with q. unfold d in Eq. fold q in Eq. rewrite Eq, H1, rx_sq by (apply Rabs_le; lra). unfold hx_u. destruct (Rlt_dec _ _) as [_|N]; [|exfalso; apply N; ring_simplify; lra].
        change (1 * 1)%Z with 1%Z. rewrite !Rminus_eq_0, Rmult_0_r, exp_0, !Rplus_0_r, Rminus_0_r, Rmult_1_r, Rmult_1_l. unfold Rdiv. rewrite Rinv_1, Rmult_1_r. f_equal; lra.
      - change (without [0; 1]%nat 0%nat) with [1%nat]. change (without [0; 1]%nat 1%nat) with [0%nat].
        rewrite !hx_one, !hx_two by apply Hm.
        change (reptated [1; 0]%nat (sTy s) (sTy s 0%nat) 0%nat) with (sTy s 0%nat). change (reptated [1; 0]%nat (sTy s) (sTy s 0%nat) 1%nat) with (sTy s 0%nat).
        rewrite T0, T1, !hx_no. rewrite !Rminus_eq_0, Rmult_0_r, exp_0, !Rplus_0_r. unfold Rdiv. rewrite Rinv_1. ring. }
    rewrite Er in *. assert (metropolis r 0 = true) as Em.
    { unfold metropolis, r. destruct (Rlt_dec _ _); [done|]. destruct (Rlt_dec _ _) as [|N]; [done|]. exfalso. apply N. destruct plus; [apply exp_pos|lra]. }
    rewrite Em in *. exists s', mk'. split; [exact E|]. split; [done|]. split; [intros a b; by rewrite Hmk|]. rewrite !HP.
    destruct plus; cbn [rev app length nth_atom nth Nat.sub].
    + set (q := shift1 ex_box _). change (reptated [0; 1]%nat (sPos s) q 0%nat) with (sPos s 1%nat). change (reptated [0; 1]%nat (sPos s) q 1%nat) with q.
      fold q in Eq. rewrite Eq, H1. done.
    + set (q := shift1 ex_box _). change (reptated [1; 0]%nat (sPos s) q 1%nat) with (sPos s 0%nat). change (reptated [1; 0]%nat (sPos s) q 0%nat) with q.
      fold q in Eq. rewrite Eq, H0. split; [done|]. split; [|done]. unfold d. f_equal. ring.
Qed.
(** C106 is false for chains of atoms of different types.  Two atoms of types 0 and 1, where atoms of type 1 repel each other; no masks, one trial.  The chain moves one
    step to the right and back; no two atoms of type 1 ever meet, and the energies of both configurations are zero.  The ratio for the move to the right is
    exp(-1), that for the move back is 1: the new head is compared with the type that its neighbour had before the move. *)
Theorem reptate_junction_refuted :
  let run := rp_move 61 (cartToGen ex_box) (distanceSq ex_box) (shift1 ex_box) (fun r q => (distanceSq_dr ex_box r q).2) hx_u None None 1 false in
  let E := fun s => site_energy (distanceSq ex_box) (mask_of (fun _ => [])) hx_u None [0; 1]%nat (sPos s) (sTy s) in
  exists s s' s'' mk' mk'',
    synced 61 4 (cartToGen ex_box) (oLen ex_box) 3 (V3 3 3 3)%Z [0; 1]%nat s /\ synced 61 4 (cartToGen ex_box) (oLen ex_box) 3 (V3 3 3 3)%Z [0; 1]%nat s' /\
    run (fun _ => []) [0; 1]%nat [0]%Z [0; 1]%Z true [] (fun _ => 1) [V3 (-1) 0 0] 0%nat 0 s = Ok (exp (-1), s', mk', true) /\
    run mk' [0; 1]%nat [0]%Z [0; 1]%Z false [] (fun _ => 1) [V3 (- -1) 0 0] 0%nat 0 s' = Ok (1, s'', mk'', true) /\
    E s = 0 /\ E s' = 0 /\ (forall a, a ∈ [0; 1]%nat -> sPos s'' a = sPos s a) /\ (forall a, a ∈ [0; 1]%nat -> sPos s' a <> sPos s a).
Proof.
  intros run E. set (ty := fun a : nat => if decide (a = 1)%nat then 1%Z else 0%Z).
  destruct (hx_built ty) as (s & Hs & HP & HT).
  assert (sPos s 0%nat = V3 1 1 1) as H0 by (rewrite HP by set_solver; done). assert (sPos s 1%nat = V3 (1 + 1) 1 1) as H1 by (rewrite HP by set_solver; done).
  assert (forall a b, mask_of (fun _ => []) a b = false) as Hm. { intros a b. unfold mask_of. apply bool_decide_eq_false. apply not_elem_of_nil. }
  destruct (hx_step true (fun _ => []) s 1 Hs Hm H0 H1 ltac:(lra)) as (s' & mk' & E1 & Hs' & Hm' & H0' & H1' & T'); [by rewrite HT..|].
  destruct (hx_step false mk' s' (1 + 1) Hs' Hm' H0' H1' ltac:(lra)) as (s'' & mk'' & E2 & Hs'' & Hm'' & H0'' & H1'' & T''); [by rewrite T', HT..|].
  exists s, s', s'', mk', mk''. split_and!; [done|done|exact E1|exact E2|..].
  - unfold E. rewrite hx_two by apply Hm. rewrite HT. apply hx_no.
  - unfold E. rewrite hx_two by apply Hm. rewrite T', HT. apply hx_no.
  - intros a Ha. repeat (apply elem_of_cons in Ha as [->|Ha]); [rewrite H0, H0''|rewrite H1, H1''|by apply elem_of_nil in Ha]; f_equal; ring.
  - intros a Ha. repeat (apply elem_of_cons in Ha as [->|Ha]); [rewrite H0, H0'|rewrite H1, H1'|by apply elem_of_nil in Ha]; intros [= X]; lra.
Qed.

(** C106: with one trial and atoms of one type the ratio is the Boltzmann factor of the change of energy. *)
Theorem reptate_one_trial :
  forall M cap B sep u cut ext beta bonded n atoms mk mol t ta (plus : bool) draw b0 z s,
  (2 <= M)%nat -> a_boundary B -> interaction_ok cut u -> grid_of (bLens B) cut n -> NoDup atoms ->
  synced M cap (bGen B) (bLens B) cut n atoms s -> mol ⊆ atoms -> NoDup mol -> (2 <= length mol)%nat -> chain_masks bonded (mask_of mk) mol ->
  (forall a, a ∈ mol -> sTy s a = ta) ->
  let c := if plus then mol else rev mol in
  let ahead := vadd (sPos s (nth_atom c (length mol - 1))) (vscale (-1) (vscale (draw t) b0)) in
  let new := reptated c (sPos s) (bWrap B ahead) in
  near_cell_of (bBrav B) ahead ->
  (forall i, (i <= length mol)%nat -> ~ crowded (bGen B) n (M - 1) atoms (midway c i new (sPos s))) ->
  let E := site_energy (bDist B) (mask_of mk) u ext in
  let ratio := exp (- beta * (E atoms new (sTy s) - E atoms (sPos s) (sTy s))) in
  exists s' mk',
    rp_move M (bGen B) (bDist B) (bWrap B) sep u None ext beta bonded mk mol (replicate (length mol - 1) t) (map (sTy s) mol) plus [] draw [b0] 0%nat z s =
      Ok (ratio, s', mk', metropolis ratio z) /\
    (forall a, sPos s' a = (if metropolis ratio z then new else sPos s) a).
Proof.
  intros M cap B sep u cut ext beta bonded n atoms mk mol t ta plus draw b0 z s HM HB Hu HG HA Hs Hsub Hnd Hn Hmask Ht c ahead new Hnear Hcr E ratio.
  destruct (reptate_weights M cap B sep u cut ext beta bonded n atoms mk mol t plus [] draw [b0] 0%nat b0 z s) as (s' & mk' & Eq & HP & _); [done..| | |done|].
  - intros b Hb. by apply elem_of_nil in Hb.
  - intros b ->%elem_of_list_singleton. done.
  - pose proof (boundary_facts B HB) as F. destruct Hu as (Hc & Hcut & Hu).
    assert (length c = length mol) as Hlen by (unfold c; destruct plus; [done|apply rev_length]).
    assert (NoDup c) as Hcd. { unfold c. destruct plus; [done|]. apply NoDup_ListNoDup, List.NoDup_rev. by apply NoDup_ListNoDup. }
    assert (forall a, a ∈ c -> a ∈ mol) as Hcm. { intros a Ha. unfold c in Ha. destruct plus; [done|]. rewrite elem_of_list_In, <- in_rev, <- elem_of_list_In in Ha. done. }
    assert (chain_masks bonded (mask_of mk) c) as Hmc. { unfold c. destruct plus; [done|]. by apply chain_masks_rev. }
    pose proof (homo_rest (bDist B) u ext (mask_of mk) bonded (bf_sym B F) Hu atoms c HA Hcd (fun a Ha => Hsub a (Hcm a Ha)) ltac:(lia) Hmc (sPos s) (bWrap B ahead)
      (sTy s) ta (fun a Ha => Ht a (Hcm a Ha))) as EJ. rewrite Hlen in EJ.
    fold c in Eq, HP. fold ahead in Eq, HP. fold new in Eq, HP, EJ. cbv zeta in Eq, HP. unfold weight_of in Eq, HP. cbn [map] in Eq, HP. rewrite !sum_cons, !sum_nil in Eq, HP. 
    set (r := exp _ * _ / _) in Eq, HP. assert (r = ratio) as Er; [|rewrite Er in *; eauto].
    unfold r. fold ahead. fold new. rewrite EJ.
    assert (forall a, reptated c (sTy s) (sTy s (nth_atom c (length mol - 1))) a = sTy s a) as ET.
    { intros a. rewrite <- Hlen. apply (homo_types c Hcd ltac:(lia) (sTy s) ta a). intros b Hb. by apply Ht, Hcm. }
    rewrite (site_ext (bDist B) u ext atoms (mask_of mk) (mask_of mk) new new (sTy s) (reptated c (sTy s) (sTy s (nth_atom c (length mol - 1))))) by (intros; done || apply ET).
    rewrite (site_ext (bDist B) u ext atoms (mask_of mk) (mask_of mk) (sPos s) (move (sPos s) (nth_atom c 0) (sPos s (nth_atom c 0))) (sTy s) (sTy s))
      by (intros; try done; unfold move; case_decide; congruence).
    fold E. set (X := E (without atoms (nth_atom c 0)) (sPos s) (sTy s)). rewrite Rminus_eq_0, Rmult_0_r, exp_0, !Rplus_0_r, Rmult_1_l. unfold Rdiv, ratio.
    rewrite <- exp_Ropp, <- exp_plus. f_equal. ring.
Qed.

(** A chain of three bonded atoms meets the hypotheses of [reptate_balance], for any positive ratio; the ratios there are positive. *)
Definition rb_mask (a : nat) : list nat := match a with 0%nat => [1%nat] | 1%nat => [0; 2]%nat | 2%nat => [1%nat] | _ => [] end.
Example reptate_balance_meets :
  chain_masks true (mask_of rb_mask) [0; 1; 2]%nat /\ NoDup [0; 1; 2]%nat /\ [0; 1; 2]%nat ⊆ seq 0 5 /\
  (forall r, 0 < r -> exists p, prob (metropolis r) p) /\
  reptated [0; 1; 2]%nat (fun a => V3 (INR a) 1 1) (V3 3 1 1) 1%nat = V3 2 1 1.
Proof.
  split_and!.
  - split.
    + intros a b. unfold mask_of. apply bool_decide_ext. destruct a as [|[|[|]]]; destruct b as [|[|[|]]]; cbn; rewrite ?elem_of_cons, ?elem_of_nil; lia.
    + intros i b Hi. cbn in Hi. unfold mask_of. rewrite bool_decide_eq_true. split.
      * intros H. split; [done|]. exists b. destruct i as [|[|[|]]]; [..|lia]; cbn in H; rewrite ?elem_of_cons, ?elem_of_nil in H;
          repeat destruct H as [->|H]; try done; cbn; lia.
      * intros (_ & k & Hk & -> & H). cbn in Hk. destruct i as [|[|[|]]]; [..|lia]; destruct k as [|[|[|]]]; try lia; cbn; rewrite ?elem_of_cons, ?elem_of_nil; lia.
  - apply (bool_decide_eq_true_1 (NoDup _)). reflexivity.
  - intros a Ha. rewrite !elem_of_cons, elem_of_nil in Ha. apply elem_of_seq. lia.
  - intros r Hr. destruct (metropolis_detailed_balance 0 0 0 1 r ltac:(lra) Hr) as (p & _ & Hp & _). exists p.
    assert (boltzmann 0 (0 - 0) = 1) as E0. { unfold boltzmann. rewrite <- exp_0. f_equal. ring. }
    rewrite E0, ?Rmult_1_l in Hp. unfold Rdiv in Hp. rewrite Rinv_1, ?Rmult_1_r, ?Rmult_1_l in Hp. exact Hp.
  - reflexivity.
Qed.

(** Two angle potentials that differ for angles of type 1 but not for bonds of type 0. *)
Example reptate_angle_type_meets :
  let v := fun x t => if decide (t = 0%Z) then x else 1 in
  let v' := fun x t => if decide (t = 0%Z) then x else 2 in
  (forall x : R, v x 0%Z = v' x 0%Z) /\ v 0 1%Z <> v' 0 1%Z.
Proof. intros v v'. split; [done|]. unfold v, v'. rewrite !decide_False by done. lra. Qed.

(** The hypotheses of [reptate_weights] hold for two atoms, and the move runs (proof of [hx_step]). *)
Example reptate_runs : exists s s' mk', 
  rp_move 61 (cartToGen ex_box) (distanceSq ex_box) (shift1 ex_box) (fun r q => (distanceSq_dr ex_box r q).2) hx_u None None 1 false
    (fun _ => []) [0; 1]%nat [0]%Z [0; 1]%Z true [] (fun _ => 1) [V3 (-(1)) 0 0] 0%nat 0 s = Ok (exp (-1), s', mk', true) /\ sPos s' 1%nat = V3 3 1 1.
Proof.
  destruct (hx_built (fun a : nat => if decide (a = 1)%nat then 1%Z else 0%Z)) as (s & Hs & HP & HT).
  destruct (hx_step true (fun _ => []) s 1) as (s' & mk' & E1 & Hs' & Hm' & H0' & H1' & T'); [done| |rewrite HP by set_solver; done|rewrite HP by set_solver; done|lra|by rewrite HT..|].
  { intros a b. unfold mask_of. apply bool_decide_eq_false. apply not_elem_of_nil. }
  exists s, s', mk'. split; [exact E1|]. rewrite H1'. f_equal. ring.
Qed.

Print Assumptions reptate_weights.
Print Assumptions reptate_back.
Print Assumptions reptate_balance.
Print Assumptions reptate_one_trial.
Print Assumptions reptate_angle_type_refuted.
Print Assumptions reptate_junction_refuted.
