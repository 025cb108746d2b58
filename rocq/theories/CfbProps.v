(** Property C48: the configuration bias move of a chain end. *)
From Coq Require Import Reals Lra.
From Coquelicot Require Import Coquelicot.
From stdpp Require Import gmap.
From Verif Require Import Base Vec3 BoxSpec OrthoModel OrthoSpec OrthoProofs OrthoProps MonoModel MonoSpec MonoProofs MonoProps.
From Verif Require Import McCellModel DomainModel DomainProofs SpeciesModel SpeciesProofs SpeciesBuild.
From Verif Require Import CellListModel CellListSpec CellListProofs CellListProps PairListModel PairListSpec PairListProofs PairListProps.
From Verif Require Import EnergyModel EnergySpec EnergyProofs MoveModel MoveSpec MoveProofs EnergyProps MoveProps BalanceSpec BalanceProps.
From Verif Require Import MdModel MdForces CfbModel CfbSpec CfbProofs CfbSteps.
From Coq Require Import Reals Lra.
Local Open Scope R_scope.

(** ** Both ends *)
Lemma aget_rev {T} (l : list T) i k : (i < length l)%nat -> k = (length l - 1 - i)%nat -> aget (rev l) k = aget l i.
Proof. intros H ->. unfold aget. rewrite rev_at by lia. replace (length l - 1 - (length l - 1 - i))%nat with i by lia. done. Qed.
Lemma end_minus M toGen dist2 wrap sep masked u ang ext vb beta mol bts r dels adds z s : length bts = (length mol - 1)%nat -> (r < length mol)%nat ->
  cfb_end_move M toGen dist2 wrap sep masked u ang ext vb beta mol bts r false dels adds z s =
  cfb_end_move M toGen dist2 wrap sep masked u ang ext vb beta (rev mol) (rev bts) r true dels adds z s.
Proof.
  intros Hb Hr. unfold cfb_end_move. rewrite !rev_length. rewrite !decide_False by lia.
  assert (foldM (fun acc i => let? e := aget mol (add_ids false (length mol) r i).1 in Ok (acc ++ [(e, sPos s e)])) [] (seq 0 r) =
          foldM (fun acc i => let? e := aget (rev mol) (add_ids true (length mol) r i).1 in Ok (acc ++ [(e, sPos s e)])) [] (seq 0 r)) as ->.
  { apply foldM_ext. intros acc i Hi%elem_of_seq. cbn [add_ids fst]. by rewrite (aget_rev mol (r - 1 - i)) by lia. }
  assert (foldM (cfb_del M toGen dist2 wrap sep masked u ang ext vb beta mol bts false dels) (s, 1) (seq 0 r) =
          foldM (cfb_del M toGen dist2 wrap sep masked u ang ext vb beta (rev mol) (rev bts) true dels) (s, 1) (seq 0 r)) as ->.
  { apply foldM_ext. intros x i Hi%elem_of_seq. unfold cfb_del. cbn [del_ids bond_id fst snd]. rewrite rev_length.
    rewrite (aget_rev mol i), (aget_rev mol (i + 1)), (aget_rev bts i) by lia. done. }
  destruct (foldM (cfb_del _ _ _ _ _ _ _ _ _ _ _ _ _ _ _) _ _) as [[s1 w]| |]; [|done|done]. cbn [obind].
  replace (foldM (cfb_add M toGen dist2 wrap sep masked u ang ext vb beta mol bts r false adds) (s1, 1) (seq 0 r)) with
          (foldM (cfb_add M toGen dist2 wrap sep masked u ang ext vb beta (rev mol) (rev bts) r true adds) (s1, 1) (seq 0 r)); [done|].
  apply foldM_ext. intros x i Hi%elem_of_seq. unfold cfb_add. cbn [add_ids bond_id fst snd]. rewrite rev_length.
  rewrite (aget_rev mol (r - 1 - i)), (aget_rev mol (r - 1 - i + 1)), (aget_rev bts i) by lia. done.
Qed.

Lemma cangles_of atoms mol k (plus : bool) : chain_angles atoms mol k -> cangles atoms (if plus then mol else rev mol) plus k.
Proof.
  intros [Hk (m & tt & H1 & H2 & H3)]. split; [done|]. destruct plus.
  - exists m, tt. split_and!; [done|done|]. by rewrite H3.
  - exists m, (fun i => tt (length mol - 2 - 1 - i)%nat). split_and!; [done| |].
    + intros a Ha. apply H2. rewrite elem_of_list_In, <- in_rev, <- elem_of_list_In in Ha. done.
    + rewrite H3, rev_length. rewrite <- (count_down (length mol - 2)) at 1. rewrite map_map.
      rewrite (map_ext_in _ (fun i => Grp (rev (take 3 (drop i (rev mol)))) (tt (length mol - 2 - 1 - i)%nat))); [done|].
      intros i Hi%in_seq. f_equal. rewrite window_rev by lia. do 2 f_equal. lia.
Qed.

(** ** C48 *)

(** C48: what the move does.  Take either boundary; any masks, pair interaction, angle potential and external potential; any chain of a system whose
    configuration is held by the cell list; either end; any number of trials and of regrown atoms; and random choices with bonds not longer than a
    cell.  With angles, at least two atoms of the chain stay, and the angles are those of a linear chain.  The move runs without error, and
    - the new configuration differs from the old one in the last [r] atoms only, each of which is put at one of its trial positions;
    - the ratio compared with the random number is the product of the Rosenbluth weights of the new atoms over that of the old ones; both are sums
      over trial positions of the Boltzmann factors of the energy needed to put the atom there, when the atoms before it in the chain and all other
      molecules are there;
    - if accepted, the system has the new configuration, and if not it has the old one; the cell list holds it.
    The bond length of the i-th new atom is drawn for the type of the i-th bond counted from the end of the chain. *)
Theorem cfb_end_weights :
  forall M cap B sep masked u cut ang ext vb beta n atoms mol bts r (plus : bool) dels adds z s,
  (2 <= M)%nat -> separations B sep -> interaction_ok cut u -> (forall i j, masked i j = masked j i) ->
  grid_of (bLens B) cut n -> NoDup atoms -> synced M cap (bGen B) (bLens B) cut n atoms s -> mol ⊆ atoms -> NoDup mol ->
  length bts = (length mol - 1)%nat -> (r < length mol)%nat ->
  (forall ap, ang = Some ap -> chain_angles atoms mol (apK ap) /\ (r + 2 <= length mol)%nat) ->
  (forall i, (i < r)%nat -> ((adds i).2 < length (adds i).1.2)%nat) ->
  let N := length mol in
  let c := if plus then mol else rev mol in
  let used := fun i => nth (N - 2 - i) (if plus then bts else rev bts) 0%Z in
  let grows := regrown (bWrap B) c used r adds (sPos s) in
  (forall i, (i < r)%nat -> reaches B c (sPos s) (N - 1 - i) (sqrt (bDist B (sPos s (nth_atom c (N - 1 - i - 1))) (sPos s (nth_atom c (N - 1 - i))))) (dels i)) ->
  (forall new i, grows new -> (i < r)%nat -> reaches B c new (N - r + i) ((adds i).1.1 (used i)) (adds i).1.2) ->
  (forall new k, grows new -> (k <= r)%nat -> ~ crowded (bGen B) n (M - 1) atoms (midway (drop (N - r) c) k (sPos s) new)) ->
  exists new s', grows new /\
    let weight := rosenbluth (bDist B) sep masked u ang ext beta atoms c in
    let ratio := Rprod (map (fun i => weight new (sTy s) (N - r + i)%nat (new_trials (bWrap B) c used r adds new i)) (seq 0 r)) /
                 Rprod (map (fun i => weight (sPos s) (sTy s) (N - 1 - i)%nat (old_trials (bDist B) (bWrap B) c (sPos s) dels i)) (seq 0 r)) in
    cfb_end_move M (bGen B) (bDist B) (bWrap B) sep masked u ang ext vb beta mol bts r plus dels adds z s = Ok (ratio, s', metropolis ratio z) /\
    (forall b, sPos s' b = (if metropolis ratio z then new else sPos s) b) /\ sTy s' = sTy s /\
    synced M cap (bGen B) (bLens B) cut n atoms s'.
Proof.
  intros M cap B sep masked u cut ang ext vb beta n atoms mol bts r plus dels adds z s HM HS (Hc & Hcut & Hu) Hm HG HA Hs Hsub Hnd Hb Hr Hang Had
    N c used grows Hr1 Hr2 Hcr.
  assert (a_boundary B) as HB. { destruct HS as [(b & ? & ? & _)|(b & ? & ? & _)]; [left|right]; eauto. }
  pose proof (boundary_facts B HB) as F. pose proof (boundary_adj B cut n HB Hc HG) as Hadj.
  assert (forall x y, sep x y = vscale (-1) (sep y x)) as Hsep.
  { intros x y. destruct HS as [(b & Hb' & _ & ->)|(b & Hb' & _ & ->)]; [by rewrite (ortho_dr_sym b y x)|by rewrite (mono_dr_sym b y x)]. }
  assert (length c = N) as Hlen by (unfold c; destruct plus; [done|apply rev_length]).
  assert (NoDup c) as Hcd. { unfold c. destruct plus; [done|]. apply NoDup_ListNoDup, List.NoDup_rev. by apply NoDup_ListNoDup. }
  assert (c ⊆ atoms) as HcA. { intros a Ha. apply Hsub. unfold c in Ha. destruct plus; [done|]. rewrite elem_of_list_In, <- in_rev, <- elem_of_list_In in Ha. done. }
  set (ts := if plus then bts else rev bts). assert (length ts = (length c - 1)%nat) as Hts by (rewrite Hlen; unfold ts; destruct plus; [done|by rewrite rev_length]).
  set (jmin := if ang then 2%nat else 1%nat).
  assert (match ang with None => True | Some ap => cangles atoms c plus (apK ap) /\ (2 <= jmin)%nat end) as Hca.
  { unfold jmin. destruct ang as [ap|]; [|done]. destruct (Hang ap eq_refl) as [H1 _]. split; [by apply cangles_of|lia]. }
  assert (jmin <= length c - r)%nat as Hj.
  { rewrite Hlen. unfold jmin, N. destruct ang as [ap|]; [|lia]. destruct (Hang ap eq_refl) as [_ H1]. lia. }
  pose proof (end_gen M cap HM (bGen B) (bDist B) (bWrap B) sep (bLens B) n masked u cut ang ext vb beta (bf_pos B F) Hc HG Hadj Hcut (bf_sym B F) Hu Hm Hsep
    atoms c plus HA Hcd HcA jmin Hca ltac:(unfold jmin; destruct ang; lia) ts used r dels adds z s) as E.
  rewrite Hlen in E. destruct E as (new & s' & H1 & H2).
  - by rewrite Hts, Hlen.
  - done.
  - by rewrite <- Hlen.
  - intros i Hi. fold ts in used. unfold used. destruct (lookup_lt_is_Some_2 ts (N - 2 - i)%nat ltac:(lia)) as [t Ht]. rewrite Ht. by rewrite (nth_lookup_Some _ _ _ _ Ht).
  - done.
  - exact Hs.
  - intros i q Hi Hq. unfold old_trials in Hq. rewrite Hlen in Hq. apply elem_of_cons in Hq as [->|Hq].
    + apply (holding_prim M cap HM (bGen B) (bLens B) cut n atoms (bf_pos B F) Hc HG _ _ _ Hs). apply HcA, nth_elem. rewrite Hlen. unfold N. lia.
    + unfold trials in Hq. apply elem_of_list_fmap in Hq as (b & -> & Hb'). apply (bf_wrap B F). by apply (Hr1 i).
  - intros new i q Hn Hi Hq. unfold new_trials, trials in Hq. rewrite Hlen in Hq. apply elem_of_list_fmap in Hq as (b & -> & Hb'). apply (bf_wrap B F). by apply (Hr2 new i).
  - exact Hcr.
  - exists new, s'. split; [done|]. cbv zeta in H2 |- *. destruct H2 as (E & H2 & H3 & H4).
    split_and!; [|done|done|done]. rewrite <- E. destruct plus; [done|]. by apply end_minus.
Qed.

(** The hypotheses of [cfb_end_weights] on angles cannot be left out: with an angle potential, a move that regrows all atoms of a chain but the first follows a
    null pointer (pvtPtr2, CfbEndBase.cpp:91-104), whatever the chain, the random numbers and the configuration. *)
Theorem cfb_null_pivot_refuted :
  forall M cap B sep masked u cut ap ext vb beta n atoms mol bts (plus : bool) dels adds z s,
  (2 <= M)%nat -> separations B sep -> interaction_ok cut u -> (forall i j, masked i j = masked j i) ->
  grid_of (bLens B) cut n -> NoDup atoms -> synced M cap (bGen B) (bLens B) cut n atoms s -> mol ⊆ atoms -> NoDup mol ->
  length bts = (length mol - 1)%nat -> (2 <= length mol)%nat -> chain_angles atoms mol (apK ap) ->
  let N := length mol in
  let c := if plus then mol else rev mol in
  (forall i, (i < N - 2)%nat -> reaches B c (sPos s) (N - 1 - i) (sqrt (bDist B (sPos s (nth_atom c (N - 1 - i - 1))) (sPos s (nth_atom c (N - 1 - i))))) (dels i)) ->
  cfb_end_move M (bGen B) (bDist B) (bWrap B) sep masked u (Some ap) ext vb beta mol bts (N - 1) plus dels adds z s = UB.
Proof.
  intros M cap B sep masked u cut ap ext vb beta n atoms mol bts plus dels adds z s HM HS (Hc & Hcut & Hu) Hm HG HA Hs Hsub Hnd Hb Hl Hang N c Hr1.
  assert (a_boundary B) as HB. { destruct HS as [(b & ? & ? & _)|(b & ? & ? & _)]; [left|right]; eauto. }
  pose proof (boundary_facts B HB) as F. pose proof (boundary_adj B cut n HB Hc HG) as Hadj.
  assert (forall x y, sep x y = vscale (-1) (sep y x)) as Hsep.
  { intros x y. destruct HS as [(b & Hb' & _ & ->)|(b & Hb' & _ & ->)]; [by rewrite (ortho_dr_sym b y x)|by rewrite (mono_dr_sym b y x)]. }
  assert (length c = N) as Hlen by (unfold c; destruct plus; [done|apply rev_length]).
  assert (NoDup c) as Hcd. { unfold c. destruct plus; [done|]. apply NoDup_ListNoDup, List.NoDup_rev. by apply NoDup_ListNoDup. }
  assert (c ⊆ atoms) as HcA. { intros a Ha. apply Hsub. unfold c in Ha. destruct plus; [done|]. rewrite elem_of_list_In, <- in_rev, <- elem_of_list_In in Ha. done. }
  set (ts := if plus then bts else rev bts). assert (length ts = (length c - 1)%nat) as Hts by (rewrite Hlen; unfold ts; destruct plus; [done|by rewrite rev_length]).
  pose proof (end_null M cap HM (bGen B) (bDist B) (bWrap B) sep (bLens B) n masked u cut (Some ap) ext vb beta (bf_pos B F) Hc HG Hadj Hcut (bf_sym B F) Hu Hm Hsep
    atoms c plus HA Hcd HcA 2 (conj (cangles_of atoms mol (apK ap) plus Hang) (le_n 2)) ltac:(lia) ap ts dels adds z s) as E.
  rewrite Hlen in E. rewrite <- E; [destruct plus; [done|by apply end_minus; [|unfold N; lia]]|done|done|by rewrite Hts, Hlen|done|exact Hs|].
  intros i q Hi Hq. unfold old_trials in Hq. rewrite Hlen in Hq. apply elem_of_cons in Hq as [->|Hq].
  - apply (holding_prim M cap HM (bGen B) (bLens B) cut n atoms (bf_pos B F) Hc HG _ _ _ Hs). apply HcA, nth_elem. rewrite Hlen. unfold N. lia.
  - unfold trials in Hq. apply elem_of_list_fmap in Hq as (b & -> & Hb'). apply (bf_wrap B F). by apply (Hr1 i).
Qed.

(** ** Energies *)
Section Energy.
  Context (dist2 : vec3 R -> vec3 R -> R) (sep : vec3 R -> vec3 R -> vec3 R) (masked : nat -> nat -> bool) (u : R -> Z -> Z -> R).
  Context (ang : option angpot) (ext : option (vec3 R -> Z -> R)) (beta : R) (A c : list nat) (Hcd : NoDup c) (HcA : c ⊆ A).
  Local Notation PE := (part_energy dist2 sep masked u ang ext).
  Local Notation ins := (insertion dist2 sep masked u ang ext A c).
  Local Notation rosen := (rosenbluth dist2 sep masked u ang ext beta A c).

  Lemma pe_ext S pos pos' ty : (forall a, a ∈ S -> pos a = pos' a) -> PE S pos ty = PE S pos' ty.
  Proof.
    clear Hcd HcA. intros E. unfold part_energy. f_equal; [f_equal|].
    - unfold pair_energy. apply sum_ext. intros i Hi. apply sum_ext. intros j Hj. by rewrite !E by done.
    - unfold angle_energy. destruct ang as [ap|]; [|done]. apply sum_ext. intros m _. apply sum_ext. intros g _.
      destruct (decide _) as [Hf|]; [|done]. f_equal. apply map_ext_in. intros a Ha%elem_of_list_In. rewrite Forall_forall in Hf. by apply E, Hf.
    - unfold external_energy. apply sum_ext. intros a Ha. by rewrite E.
  Qed.
  Lemma remaining_all : remaining A c (length c) = A.
  Proof.
    clear Hcd HcA. unfold remaining. rewrite drop_all. rewrite <- (List.filter_ext_in (fun _ => true)).
    - clear. induction A; cbn; congruence.
    - intros a _. symmetry. apply negb_true_iff, bool_decide_eq_false, not_elem_of_nil.
  Qed.
  Lemma ins_at pos ty j : ins pos ty j (pos (nth_atom c j)) = PE (remaining A c (S j)) pos ty - PE (remaining A c j) pos ty.
  Proof. unfold insertion. f_equal. apply pe_ext. intros a _. destruct (decide _) as [->|]; done. Qed.

  Lemma grow_prod pos ty j k : Rprod (map (fun i => exp (- beta * ins pos ty (j + i) (pos (nth_atom c (j + i))))) (seq 0 k)) =
    exp (- beta * (PE (remaining A c (j + k)) pos ty - PE (remaining A c j) pos ty)).
  Proof.
    induction k as [|k IH]; [rewrite Nat.add_0_r; cbn; symmetry; rewrite <- exp_0; f_equal; ring|].
    rewrite seq_S, map_app; cbn [map Nat.add]; rewrite Rprod_snoc, IH, <- exp_plus. cbn [Nat.add]. f_equal. rewrite ins_at. replace (j + S k)%nat with (S (j + k)) by lia. ring.
  Qed.
  Lemma shrink_prod pos ty k : (k <= length c)%nat -> Rprod (map (fun i => exp (- beta * ins pos ty (length c - 1 - i) (pos (nth_atom c (length c - 1 - i))))) (seq 0 k)) =
    exp (- beta * (PE (remaining A c (length c)) pos ty - PE (remaining A c (length c - k)) pos ty)).
  Proof.
    induction k as [|k IH]; intros Hk; [rewrite Nat.sub_0_r; cbn; symmetry; rewrite <- exp_0; f_equal; ring|].
    rewrite seq_S, map_app; cbn [map Nat.add]; rewrite Rprod_snoc, IH, <- exp_plus by lia. cbn [Nat.add]. f_equal. rewrite ins_at. replace (length c - k)%nat with (S (length c - 1 - k)) by lia.
    replace (length c - S k)%nat with (length c - 1 - k)%nat by lia. ring.
  Qed.
  Lemma rosen_pos pos ty j qs : qs <> [] -> 0 < rosen pos ty j qs.
  Proof.
    intros Hq. destruct qs as [|q qs]; [done|]. unfold rosenbluth. rewrite sum_cons. pose proof (exp_pos (- beta * ins pos ty j q)).
    enough (0 <= sum_over qs (fun q => exp (- beta * ins pos ty j q))) by lra. clear. induction qs as [|q qs IH]; [rewrite sum_nil; lra|].
    rewrite sum_cons. pose proof (exp_pos (- beta * ins pos ty j q)). lra.
  Qed.
  Lemma Rprod_pos {T} (f : T -> R) l : (forall x, x ∈ l -> 0 < f x) -> 0 < Rprod (map f l).
  Proof. induction l as [|x l IH]; intros H; cbn; [lra|]. apply Rmult_lt_0_compat; [apply H; left|]. apply IH. intros. apply H. by right. Qed.
  Lemma Rprod_div {T} (f g : T -> R) l : (forall x, x ∈ l -> g x <> 0) -> Rprod (map (fun x => f x / g x) l) = Rprod (map f l) / Rprod (map g l).
  Proof.
    unfold Rprod. induction l as [|x l IH]; intros H; cbn [map foldr]; [field|]. rewrite IH by (intros; apply H; by right).
    assert (foldr Rmult 1 (map g l) <> 0) as Hn.
    { clear IH. induction l as [|y l IH]; cbn; [lra|]. apply Rmult_integral_contrapositive_currified; [apply H; right; left|].
      apply IH. intros z Hz. apply H. apply elem_of_cons in Hz as [->|Hz]; [left|right; by right]. }
    field. split; [done|apply H; left].
  Qed.
  Lemma rem_old_new old new ty r : (forall a, a ∉ drop (length c - r) c -> new a = old a) ->
    PE (remaining A c (length c - r)) new ty = PE (remaining A c (length c - r)) old ty.
  Proof.
    intros H. apply pe_ext. intros a Ha. unfold remaining in Ha. rewrite elem_of_list_In, filter_In in Ha. destruct Ha as [_ Ha]. apply H.
    by rewrite negb_true_iff, bool_decide_eq_false in Ha.
  Qed.
End Energy.

(** The energy of all atoms, in which the chain is complete, is the potential energy without bonds. *)
Lemma part_energy_all dist2 sep masked u ap ext atoms pos ty :
  (forall m g, m ∈ kMols (apK ap) -> g ∈ kGrp (apK ap) m -> Forall (fun a => a ∈ atoms) (gAt g)) -> kE (apK ap) = angle_kE sep dist2 (apV ap) ->
  part_energy dist2 sep masked u (Some ap) ext atoms pos ty = total_energy dist2 masked u [apK ap] ext atoms pos ty.
Proof.
  intros Hg HE. unfold part_energy, total_energy. rewrite sum_cons, sum_nil, Rplus_0_r. do 2 f_equal. unfold angle_energy, bonded_energy.
  apply sum_ext. intros m Hm. apply sum_ext. intros g Hin. rewrite decide_True by eauto. by rewrite HE.
Qed.

(** C48: with one trial per atom the ratio is the Boltzmann factor of the change of the energy, of the whole system and without the bonds. *)
Theorem cfb_one_trial :
  forall dist2 wrap sep masked u ang ext beta atoms c used r adds dels old new ty,
  NoDup c -> c ⊆ atoms -> (r < length c)%nat ->
  regrown wrap c used r adds old new -> (forall i, (i < r)%nat -> length (adds i).1.2 = 1%nat /\ dels i = []) ->
  let weight := rosenbluth dist2 sep masked u ang ext beta atoms c in
  let E := part_energy dist2 sep masked u ang ext atoms in
  Rprod (map (fun i => weight new ty (length c - r + i)%nat (new_trials wrap c used r adds new i)) (seq 0 r)) /
  Rprod (map (fun i => weight old ty (length c - 1 - i)%nat (old_trials dist2 wrap c old dels i)) (seq 0 r)) = boltzmann beta (E new ty - E old ty).
Proof.
  intros dist2 wrap sep masked u ang ext beta atoms c used r adds dels old new ty Hcd HcA Hr [H1 H2] Hone weight E.
  set (ins := insertion dist2 sep masked u ang ext atoms c).
  rewrite (map_ext_in _ (fun i => exp (- beta * ins new ty (length c - r + i)%nat (new (nth_atom c (length c - r + i)))))).
  2:{ intros i Hi%in_seq. destruct (H2 i ltac:(lia)) as (b & Hb & Eb). destruct (Hone i ltac:(lia)) as [Hl _]. unfold weight, rosenbluth, new_trials, trials.
      destruct ((adds i).1.2) as [|b' [|]]; [done| |done]. destruct (adds i).2; [|done]. injection Hb as ->. cbn [map]. rewrite sum_cons, sum_nil, Rplus_0_r. by rewrite <- Eb. }
  rewrite (map_ext_in (fun i => weight old ty (length c - 1 - i)%nat (old_trials dist2 wrap c old dels i)) (fun i => exp (- beta * ins old ty (length c - 1 - i)%nat (old (nth_atom c (length c - 1 - i)))))).
  2:{ intros i Hi%in_seq. destruct (Hone i ltac:(lia)) as [_ Hl]. unfold weight, rosenbluth, old_trials, trials. rewrite Hl. cbn [map]. by rewrite sum_cons, sum_nil, Rplus_0_r. }
  unfold ins. rewrite grow_prod, shrink_prod by lia. replace (length c - r + r)%nat with (length c) by lia. rewrite remaining_all.
  rewrite (rem_old_new dist2 sep masked u ang ext atoms c old new ty r H1). unfold Rdiv. rewrite <- exp_Ropp, <- exp_plus. unfold boltzmann. f_equal. unfold E. ring.
Qed.

(** C48: with any number of trials, the acceptance rule balances the way there and the way back.  Let [ps] i and [qs] i be the positions compared for the
    i-th atom removed and grown, which include the old and the new position.  The program takes the new position of an atom with probability Boltzmann
    factor over Rosenbluth weight (drawFrom).  Then the Boltzmann weight of the old configuration, times the probabilities of taking the new positions,
    times that of accepting, is the same for the way back, in which the two sets change their roles. *)
Theorem cfb_end_balance :
  forall dist2 sep masked u ang ext beta atoms c r old new ty (ps qs : nat -> list (vec3 R)) p p',
  NoDup c -> c ⊆ atoms -> (r < length c)%nat -> (forall a, a ∉ drop (length c - r) c -> new a = old a) ->
  (forall i, (i < r)%nat -> old (nth_atom c (length c - 1 - i)) ∈ ps i /\ new (nth_atom c (length c - r + i)) ∈ qs i) ->
  let E := part_energy dist2 sep masked u ang ext atoms in
  let weight := rosenbluth dist2 sep masked u ang ext beta atoms c in
  let take := fun pos j set => exp (- beta * insertion dist2 sep masked u ang ext atoms c pos ty j (pos (nth_atom c j))) / weight pos ty j set in
  let Wn := Rprod (map (fun i => weight new ty (length c - r + i)%nat (qs i)) (seq 0 r)) in
  let Wo := Rprod (map (fun i => weight old ty (length c - 1 - i)%nat (ps i)) (seq 0 r)) in
  prob (metropolis (Wn / Wo)) p -> prob (metropolis (Wo / Wn)) p' ->
  exp (- beta * E old ty) * Rprod (map (fun i => take new (length c - r + i)%nat (qs i)) (seq 0 r)) * p =
  exp (- beta * E new ty) * Rprod (map (fun i => take old (length c - 1 - i)%nat (ps i)) (seq 0 r)) * p'.
Proof.
  intros dist2 sep masked u ang ext beta atoms c r old new ty ps qs p p' Hcd HcA Hr Hout Hin E weight take Wn Wo Hp Hp'.
  assert (forall pos j i, i ∈ seq 0 r -> 0 < weight pos ty j (qs i)) as Hq.
  { intros pos j i Hi%elem_of_seq. apply rosen_pos. destruct (Hin i ltac:(lia)) as [_ H]. intros X. rewrite X in H. by apply elem_of_nil in H. }
  assert (forall pos j i, i ∈ seq 0 r -> 0 < weight pos ty j (ps i)) as Hps.
  { intros pos j i Hi%elem_of_seq. apply rosen_pos. destruct (Hin i ltac:(lia)) as [H _]. intros X. rewrite X in H. by apply elem_of_nil in H. }
  assert (0 < Wn) as HWn by (apply Rprod_pos; intros; by apply Hq). assert (0 < Wo) as HWo by (apply Rprod_pos; intros; by apply Hps).
  unfold take. rewrite !Rprod_div; [|intros i Hi; specialize (Hps old (length c - 1 - i)%nat i Hi); lra|intros i Hi; specialize (Hq new (length c - r + i)%nat i Hi); lra].
  fold Wn Wo. rewrite grow_prod, shrink_prod by lia. replace (length c - r + r)%nat with (length c) by lia. rewrite remaining_all.
  rewrite (rem_old_new dist2 sep masked u ang ext atoms c old new ty r Hout). fold (E new ty) (E old ty). set (X := part_energy _ _ _ _ _ _ _ old ty).
  destruct (metropolis_detailed_balance 0 0 0 Wo Wn HWo HWn) as (a & a' & Ha & Ha' & Eq).
  assert (boltzmann 0 (0 - 0) = 1) as E1. { unfold boltzmann. rewrite <- exp_0. f_equal. ring. } rewrite E1, !Rmult_1_l in Ha, Ha'.
  assert (a = p) as <-. { transitivity (RInt (fun r => if metropolis (Wn / Wo) r then 1 else 0) 0 1); [symmetry|]; by apply is_RInt_unique. }
  assert (a' = p') as <-. { transitivity (RInt (fun r => if metropolis (Wo / Wn) r then 1 else 0) 0 1); [symmetry|]; by apply is_RInt_unique. }
  assert (exp (- 0 * 0) = 1) as E0. { rewrite <- exp_0. f_equal. ring. } rewrite E0 in Eq.
  assert (exp (- beta * E old ty) * exp (- beta * (E new ty - X)) = exp (- beta * E new ty) * exp (- beta * (E old ty - X))) as EE.
  { rewrite <- !exp_plus. f_equal. ring. }
  assert (a = Wn * a' / Wo) as ->. { apply (Rmult_eq_reg_l Wo); [|lra]. field_simplify; lra. }
  transitivity (exp (- beta * E old ty) * exp (- beta * (E new ty - X)) * a' / Wo); [field; lra|]. rewrite EE. field. lra.
Qed.

(** ** Bond types *)

(** C48: if the bonds of the chain all have one type, as in every species of the package (calculateBondTypeId), the lengths are drawn for the type of the
    bond by which the atom is attached.  The general statement, for any types, is refuted below. *)
Theorem cfb_bond_types_partial :
  forall (bts : list Z) N r (plus : bool) t i,
  length bts = (N - 1)%nat -> (r < N)%nat -> (i < r)%nat -> Forall (fun x => x = t) bts ->
  let ts := if plus then bts else rev bts in
  nth (N - 2 - i) ts 0%Z = attached N r ts i.
Proof.
  intros bts N r plus t i Hl Hr Hi Ht ts. unfold attached.
  assert (length ts = (N - 1)%nat) as Hlen by (unfold ts; destruct plus; [done|by rewrite rev_length]).
  assert (Forall (fun x => x = t) ts) as Hts. { unfold ts. destruct plus; [done|]. by apply Forall_rev. }
  assert (forall k, (k < N - 1)%nat -> nth k ts 0%Z = t) as H.
  { intros k Hk. destruct (lookup_lt_is_Some_2 ts k ltac:(lia)) as [x Hx]. rewrite (nth_lookup_Some _ _ _ _ Hx). rewrite Forall_lookup in Hts. by apply (Hts k). }
  rewrite !H by lia. done.
Qed.

(** Positions on a line. *)
Definition cx_pos (a : nat) : vec3 R := match a with O => V3 1 1 1 | 1%nat => V3 2 1 1 | 2%nat => V3 3 1 1 | _ => V3 4 1 1 end.
Lemma cx_boundary : separations (ortho_bd ex_box) (fun r q => (distanceSq_dr ex_box r q).2) /\ a_boundary (ortho_bd ex_box).
Proof. split; left; exists ex_box; [split; [apply ex_a_box|done]|]. split; [apply ex_a_box|done]. Qed.
Lemma cx_wrap_in p : near_cell_of (oBrav ex_box) p -> forall i, (i < 3)%nat -> 0 <= vget (shift1 ex_box p) i < 10.
Proof.
  intros Hn i Hi. pose proof (shift_in ex_box ex_a_box p (V3 0 0 0)) as H. replace (vadd p (V3 0 0 0)) with p in H by (destruct p; unfold vadd; cbn; f_equal; ring).
  specialize (H Hn i Hi). destruct ex_wf as [lat W]. rewrite (w_len _ _ _ W) in H. destruct i as [|[|[|]]]; try lia; cbn in *; lra.
Qed.
Lemma cx_built u N : (1 <= N <= 4)%nat -> interaction_ok 3 u ->
  exists s, synced 61 4 (cartToGen ex_box) (oLen ex_box) 3 (V3 3 3 3)%Z (seq 0 N) s /\ (forall a, a ∈ seq 0 N -> sPos s a = cx_pos a).
Proof.
  intros HN Hu. destruct cx_boundary as [_ HB].
  destruct (mc_energy_correct 61 4 (ortho_bd ex_box) (fun _ _ => false) u 3 [] None (V3 3 3 3)%Z (seq 0 N) (MC cx_pos (fun _ => 0%Z) (cl_new 4)))
    as (s & E & Hs & HP & HT & _); [lia|done|done|apply rx_grid|apply NoDup_seq|done| |apply few_not_crowded; rewrite seq_length; lia|].
  { intros a Ha%elem_of_seq. cbn [sPos]. split; [lia|]. apply box_near. destruct a as [|[|[|]]]; intros [|[|[|]]] Hi; cbn; (lra || lia). }
  exists s. split; [done|]. intros a Ha. rewrite HP. cbn [ortho_bd bWrap]. rewrite decide_True by done. cbn [sPos]. destruct a as [|[|[|]]]; apply rx_shift; lra.
Qed.
Definition no_u (_ : R) (_ _ : Z) : R := 0.
Lemma no_u_ok : interaction_ok 3 no_u.
Proof. split; [lra|]. split; done. Qed.
Lemma no_pair_energy dist2 masked A pos ty : pair_energy dist2 masked no_u A pos ty = 0.
Proof. unfold pair_energy, no_u. apply sum_0. intros i _. apply sum_0. intros j _. repeat case_match; done. Qed.

Lemma cx_out : 0%nat ∉ [1; 2]%nat.
Proof. rewrite !elem_of_cons, elem_of_nil. lia. Qed.

(** C48 is false for chains with bonds of different types: the type of the i-th bond from the end is used for the i-th atom that is grown, which is the i-th
    of the regrown atoms counted from the other side.  In a chain of three atoms with bonds of types 0 and 1, of lengths 1 and 2, regrowing two atoms makes
    the bond of type 0 have the length 2, and the move is accepted. *)
Theorem cfb_bond_types_refuted :
  exists mol bts dels adds s s',
    synced 61 4 (cartToGen ex_box) (oLen ex_box) 3 (V3 3 3 3)%Z (seq 0 3) s /\ mol = [0; 1; 2]%nat /\ bts = [0; 1]%Z /\
    (forall i, (adds i).1.1 0%Z = 1 /\ (adds i).1.1 1%Z = 2) /\
    cfb_end_move 61 (cartToGen ex_box) (distanceSq ex_box) (shift1 ex_box) (fun r q => (distanceSq_dr ex_box r q).2) (fun _ _ => false) no_u None None
      (fun _ _ => 0) 1 mol bts 2 true dels adds (1/2) s = Ok (1, s', true) /\
    distanceSq ex_box (sPos s' 0%nat) (sPos s' 1%nat) = 4.
Proof.
  destruct (cx_built no_u 3 ltac:(lia) no_u_ok) as (s & Hs & HP). destruct cx_boundary as [HS HB].
  set (adds := fun _ : nat => ((fun t : Z => if decide (t = 0%Z) then 1 else 2), [V3 1 0 0 : vec3 R], 0%nat)).
  set (used := fun i => nth (3 - 2 - i) [0; 1]%Z 0%Z).
  assert (forall new i, regrown (shift1 ex_box) [0; 1; 2]%nat used 2 adds (sPos s) new -> (i < 2)%nat ->
            forall k, (k < 3)%nat -> 0 <= vget (new (nth_atom [0; 1; 2]%nat (3 - 2 + i - 1))) k < 10) as Hin.
  { intros new i [H1 H2] Hi k Hk. destruct i as [|[|]]; [| |lia].
    - change (nth_atom [0; 1; 2]%nat (3 - 2 + 0 - 1)) with 0%nat. rewrite H1 by apply cx_out. rewrite HP by (apply elem_of_seq; lia). destruct k as [|[|[|]]]; cbn; lia || lra.
    - destruct (H2 0%nat ltac:(lia)) as (b & [= <-] & E). change (nth_atom [0; 1; 2]%nat (3 - 2 + 1 - 1)) with 1%nat.
      change (new 1%nat = shift1 ex_box (vadd (new 0%nat) (vscale 2 (V3 1 0 0)))) in E. rewrite E. apply cx_wrap_in; [|done]. apply box_near. intros k' Hk'.
      rewrite (H1 0%nat) by apply cx_out. rewrite HP by (apply elem_of_seq; lia). destruct k' as [|[|[|]]]; cbn; lia || lra. }
  destruct (cfb_end_weights 61 4 (ortho_bd ex_box) (fun r q => (distanceSq_dr ex_box r q).2) (fun _ _ => false) no_u 3 None None (fun _ _ => 0) 1 (V3 3 3 3)%Z
    (seq 0 3) [0; 1; 2]%nat [0; 1]%Z 2 true (fun _ => []) adds (1/2) s) as (new & s' & Hg & E & Hp & _ & _).
  - lia.
  - done.
  - apply no_u_ok.
  - done.
  - apply rx_grid.
  - apply NoDup_seq.
  - done.
  - done.
  - apply (bool_decide_eq_true_1 (NoDup _)). reflexivity.
  - done.
  - cbn. lia.
  - done.
  - intros i _. cbn. lia.
  - intros i _ b Hb. by apply elem_of_nil in Hb.
  - intros new i Hg Hi b Hb. apply elem_of_list_singleton in Hb as ->. apply box_near. intros k Hk. pose proof (Hin new i Hg Hi k Hk) as H0.
    cbn [length]. change (length [0; 1; 2]%nat) with 3%nat. destruct (new (nth_atom [0; 1; 2]%nat (3 - 2 + i - 1))) as [x y z']. unfold vadd, vscale.
    cbn [adds fst snd]. destruct (decide _); destruct k as [|[|[|]]]; cbn [vget vx vy vz] in *; lia || lra.
  - intros new k _ _. apply few_not_crowded. cbn. lia.
  - rewrite (cfb_one_trial (distanceSq ex_box) (shift1 ex_box) _ _ _ None None 1 (seq 0 3) [0; 1; 2]%nat used 2 adds (fun _ => []) (sPos s) new) in E, Hp;
      [|try (apply (bool_decide_eq_true_1 (NoDup _)); reflexivity); try done; try (cbn; lia)..].
    assert (boltzmann 1 (part_energy (distanceSq ex_box) (fun r q => (distanceSq_dr ex_box r q).2) (fun _ _ => false) no_u None None (seq 0 3) new (sTy s) -
              part_energy (distanceSq ex_box) (fun r q => (distanceSq_dr ex_box r q).2) (fun _ _ => false) no_u None None (seq 0 3) (sPos s) (sTy s)) = 1) as E1.
    { unfold boltzmann. rewrite <- exp_0. f_equal. unfold part_energy. rewrite !no_pair_energy. unfold angle_energy, external_energy. rewrite !sum_0 by done. ring. }
    rewrite E1 in E, Hp. assert (metropolis 1 (1/2) = true) as Em. { unfold metropolis. destruct (Rlt_dec _ _); [done|]. destruct (Rlt_dec _ _); [done|lra]. }
    rewrite Em in E, Hp. exists [0; 1; 2]%nat, [0; 1]%Z, (fun _ => []), adds, s, s'. split_and!; [done|done|done|done|exact E|].
    rewrite !Hp. destruct Hg as [H1 H2]. destruct (H2 0%nat ltac:(lia)) as (b & [= <-] & Eb). 
    change (new 1%nat = shift1 ex_box (vadd (new 0%nat) (vscale 2 (V3 1 0 0)))) in Eb. rewrite Eb.
    rewrite (H1 0%nat) by apply cx_out. rewrite HP by (apply elem_of_seq; lia). cbn [cx_pos].
    unfold vadd, vscale. cbn [vx vy vz]. replace (V3 (1 + 2 * 1) (1 + 2 * 0) (1 + 2 * 0)) with (V3 3 1 1) by (f_equal; ring).
    rewrite rx_shift by lra. rewrite rx_sq; [lra|]. apply Rabs_le. lra.
Qed.

(** A chain of four atoms with angles, pair interaction and external field; two atoms are regrown at its first end with two trials each.  The hypotheses of
    [cfb_end_weights] hold, so that the move runs; and with three atoms regrown the hypotheses of [cfb_null_pivot_refuted] hold. *)
Definition cx_angles : gkind :=
  GK (angle_kE (fun r q => (distanceSq_dr ex_box r q).2) (distanceSq ex_box) (fun x _ => x)) [0%nat]
    (fun _ => [Grp [0; 1; 2]%nat 0%Z; Grp [1; 2; 3]%nat 1%Z]) (fun _ => 0%nat)
    (fun a => match a with 0%nat => [0%nat] | 1%nat => [0; 1]%nat | 2%nat => [0; 1]%nat | 3%nat => [1%nat] | _ => [] end).
Lemma cx_chain : chain_angles (seq 0 4) (seq 0 4) cx_angles.
Proof.
  split.
  - split; [apply NoDup_singleton|]. intros a Ha. apply elem_of_seq in Ha. split; [left|]. split; [|split].
    + destruct a as [|[|[|[|]]]]; try lia; apply (bool_decide_eq_true_1 (NoDup _)); reflexivity.
    + intros id. cbn [cx_angles kGrp kMolOf kIds]. split.
      * intros Hi. destruct a as [|[|[|[|]]]]; try lia; rewrite ?elem_of_cons, ?elem_of_nil in Hi;
          (destruct Hi as [->|[->|[]]] || destruct Hi as [->|[]]); eexists; (split; [reflexivity|]); cbn [gAt]; rewrite !elem_of_cons; lia.
      * intros (g & Hg & Hin). destruct id as [|[|]]; [..|done]; injection Hg as <-; cbn [gAt] in Hin; rewrite !elem_of_cons, elem_of_nil in Hin;
          destruct a as [|[|[|[|]]]]; try lia; rewrite !elem_of_cons; lia.
    + intros m g Hm _ _. by apply elem_of_list_singleton in Hm.
  - exists 0%nat, (fun i => if decide (i = 0%nat) then 0%Z else 1%Z). split; [left|]. split; [done|]. reflexivity.
Qed.
Example cfb_example :
  exists s, synced 61 4 (cartToGen ex_box) (oLen ex_box) 3 (V3 3 3 3)%Z (seq 0 4) s /\
    let dels := fun _ : nat => [V3 0 1 0 : vec3 R] in
    let adds := fun _ : nat => ((fun _ : Z => 1), [V3 0 1 0 : vec3 R; V3 0 0 1], 1%nat) in
    let run := fun r => cfb_end_move 61 (cartToGen ex_box) (distanceSq ex_box) (shift1 ex_box) (fun r q => (distanceSq_dr ex_box r q).2) (fun _ _ => false)
      rx_u (Some (AP (fun x _ => x) cx_angles)) (Some (fun p _ => vz p)) (fun _ _ => 0) 1 (seq 0 4) [0; 1; 0]%Z r false dels adds (1/2) s in
    (exists ratio s' ok, run 2%nat = Ok (ratio, s', ok)) /\ run 3%nat = UB.
Proof.
  destruct (cx_built rx_u 4 ltac:(lia) rx_ix) as (s & Hs & HP). destruct cx_boundary as [HS HB]. exists s. split; [done|].
  intros dels adds run. set (c := rev (seq 0 4)).
  assert (Hpos : forall i, (i < 4)%nat -> forall k, (k < 3)%nat -> 0 <= vget (sPos s (nth_atom c i)) k <= 4).
  { intros i Hi k Hk. assert (nth_atom c i ∈ seq 0 4) as Ha. { apply elem_of_seq. destruct i as [|[|[|[|]]]]; cbn; lia. }
    rewrite HP by done. destruct i as [|[|[|[|]]]]; try lia; destruct k as [|[|[|]]]; try lia; cbn; lra. }
  assert (Hd : forall p, (forall k, (k < 3)%nat -> 0 <= vget p k <= 4) -> forall q, (forall k, (k < 3)%nat -> 0 <= vget q k <= 4) -> forall b, b ∈ [V3 0 1 0 : vec3 R] ->
             forall L, 0 <= L <= 9 -> near_cell_of (oBrav ex_box) (vadd p (vscale L b))).
  { intros p Hp q Hq b ->%elem_of_list_singleton L HL. apply box_near. intros k Hk. specialize (Hp k Hk). destruct p. destruct k as [|[|[|]]]; try lia; unfold vadd, vscale; cbn in *; lra. }
  assert (HL : forall i j, (i < 4)%nat -> (j < 4)%nat -> 0 <= sqrt (distanceSq ex_box (sPos s (nth_atom c i)) (sPos s (nth_atom c j))) <= 9).
  { intros i j Hi Hj. split; [apply sqrt_pos|]. replace 9 with (sqrt (9 * 9)) by (apply sqrt_square; lra). apply sqrt_le_1_alt.
    assert (forall i, (i < 4)%nat -> exists x, sPos s (nth_atom c i) = V3 x 1 1 /\ 1 <= x <= 4) as Hx.
    { intros k Hk. assert (nth_atom c k ∈ seq 0 4) as Ha. { apply elem_of_seq. destruct k as [|[|[|[|]]]]; cbn; lia. }
      rewrite HP by done. destruct k as [|[|[|[|]]]]; try lia; eexists; (split; [reflexivity|lra]). }
    destruct (Hx i Hi) as (x & -> & X). destruct (Hx j Hj) as (y & -> & Y). rewrite rx_sq by (apply Rabs_le; lra). nra. }
  split.
  - destruct (cfb_end_weights 61 4 (ortho_bd ex_box) (fun r q => (distanceSq_dr ex_box r q).2) (fun _ _ => false) rx_u 3 (Some (AP (fun x _ => x) cx_angles)) (Some (fun p _ => vz p))
      (fun _ _ => 0) 1 (V3 3 3 3)%Z (seq 0 4) (seq 0 4) [0; 1; 0]%Z 2 false dels adds (1/2) s) as (new & s' & Hg & E & _);
      [lia|done|apply rx_ix|done|apply rx_grid|apply NoDup_seq|done|done|apply NoDup_seq|done|cbn; lia| | | | | |].
    + intros ap [= <-]. split; [apply cx_chain|cbn; lia].
    + intros i _. cbn. lia.
    + intros i Hi b Hb. cbn [ortho_bd bBrav bDist]. fold c. change (length (seq 0 4)) with 4%nat. apply (Hd _ (Hpos (4 - 1 - i - 1)%nat ltac:(lia)) _ (Hpos 0%nat ltac:(lia)) b Hb). apply HL; lia.
    + intros new i [H1 H2] Hi b Hb. apply box_near. intros k Hk. fold c in H1, H2 |- *.
      assert (forall k, (k < 3)%nat -> 0 <= vget (new (nth_atom c (4 - 2 + i - 1))) k < 10) as Hin.
      { clear k Hk b Hb. intros k Hk. assert (0 <= vget (new (nth_atom c 1)) k <= 4) as Ha.
        { rewrite H1; [apply Hpos; lia|]. change (drop (length c - 2) c) with [1; 0]%nat. change (nth_atom c 1) with 2%nat. rewrite !elem_of_cons, elem_of_nil. lia. }
        destruct i as [|[|]]; [change (4 - 2 + 0 - 1)%nat with 1%nat; lra| |lia]. change (4 - 2 + 1 - 1)%nat with 2%nat.
        destruct (H2 0%nat ltac:(lia)) as (b & [= <-] & E). change (new (nth_atom c 2) = shift1 ex_box (vadd (new (nth_atom c 1)) (vscale 1 (V3 0 0 1)))) in E. rewrite E.
        apply cx_wrap_in; [|done]. apply box_near. intros k' Hk'. assert (0 <= vget (new (nth_atom c 1)) k' <= 4) as Ha'.
        { rewrite H1; [apply Hpos; lia|]. change (drop (length c - 2) c) with [1; 0]%nat. change (nth_atom c 1) with 2%nat. rewrite !elem_of_cons, elem_of_nil. lia. }
        destruct (new (nth_atom c 1)). destruct k' as [|[|[|]]]; try lia; unfold vadd, vscale; cbn in *; lra. }
      specialize (Hin k Hk). change (length (seq 0 4)) with 4%nat. destruct (new (nth_atom c (4 - 2 + i - 1))).
      apply elem_of_cons in Hb as [->|Hb]; [|apply elem_of_list_singleton in Hb as ->]; destruct k as [|[|[|]]]; try lia; unfold vadd, vscale; cbn in *; lra.
    + intros new k _ _. apply few_not_crowded. cbn. lia.
    + unfold run. eauto.
  - apply (cfb_null_pivot_refuted 61 4 (ortho_bd ex_box) (fun r q => (distanceSq_dr ex_box r q).2) (fun _ _ => false) rx_u 3 (AP (fun x _ => x) cx_angles) (Some (fun p _ => vz p))
      (fun _ _ => 0) 1 (V3 3 3 3)%Z (seq 0 4) (seq 0 4) [0; 1; 0]%Z false dels adds (1/2) s);
      [lia|done|apply rx_ix|done|apply rx_grid|apply NoDup_seq|done|done|apply NoDup_seq|done|cbn; lia|apply cx_chain|].
    intros i Hi b Hb. cbn [ortho_bd bBrav bDist]. fold c. change (length (seq 0 4)) with 4%nat in *. apply (Hd _ (Hpos (4 - 1 - i - 1)%nat ltac:(lia)) _ (Hpos 0%nat ltac:(lia)) b Hb). apply HL; lia.
Qed.
(** With [ps] and [qs] as in the move of [cfb_bond_types_refuted] the hypotheses of [cfb_end_balance] hold. *)
Example cfb_balance_example :
  exists old new (ps qs : nat -> list (vec3 R)) p p',
    old 1%nat <> new 1%nat /\ (forall a, a ∉ drop (3 - 2) [0; 1; 2]%nat -> new a = old a) /\
    (forall i, (i < 2)%nat -> old (nth_atom [0; 1; 2]%nat (3 - 1 - i)) ∈ ps i /\ new (nth_atom [0; 1; 2]%nat (3 - 2 + i)) ∈ qs i) /\
    let weight := rosenbluth (distanceSq ex_box) (fun r q => (distanceSq_dr ex_box r q).2) (fun _ _ => false) no_u None None 1 [0; 1; 2]%nat [0; 1; 2]%nat in
    let Wn := Rprod (map (fun i => weight new (fun _ => 0%Z) (3 - 2 + i)%nat (qs i)) (seq 0 2)) in
    let Wo := Rprod (map (fun i => weight old (fun _ => 0%Z) (3 - 1 - i)%nat (ps i)) (seq 0 2)) in
    prob (metropolis (Wn / Wo)) p /\ prob (metropolis (Wo / Wn)) p'.
Proof.
  set (old := cx_pos). set (new := fun a => match a with 1%nat => V3 1 2 1 | 2%nat => V3 1 3 1 | _ => cx_pos a end).
  set (ps := fun i => [old (nth_atom [0; 1; 2]%nat (3 - 1 - i)); V3 1 1 2]). set (qs := fun i => [new (nth_atom [0; 1; 2]%nat (3 - 2 + i)); V3 1 1 2]).
  set (weight := rosenbluth (distanceSq ex_box) (fun r q => (distanceSq_dr ex_box r q).2) (fun _ _ => false) no_u None None 1 [0; 1; 2]%nat [0; 1; 2]%nat).
  set (Wn := Rprod (map (fun i => weight new (fun _ => 0%Z) (3 - 2 + i)%nat (qs i)) (seq 0 2))).
  set (Wo := Rprod (map (fun i => weight old (fun _ => 0%Z) (3 - 1 - i)%nat (ps i)) (seq 0 2))).
  assert (0 < Wn) as HWn by (apply Rprod_pos; intros; by apply rosen_pos). assert (0 < Wo) as HWo by (apply Rprod_pos; intros; by apply rosen_pos).
  destruct (metropolis_detailed_balance 0 0 0 Wo Wn HWo HWn) as (a & a' & Ha & Ha' & _).
  assert (boltzmann 0 (0 - 0) = 1) as E1. { unfold boltzmann. rewrite <- exp_0. f_equal. ring. } rewrite E1, !Rmult_1_l in Ha, Ha'.
  exists old, new, ps, qs, a, a'. split; [|split; [|split; [|done]]].
  - intros E. apply (f_equal vx) in E. change (2 = 1) in E. lra.
  - intros b Hb. change (drop (3 - 2) [0; 1; 2]%nat) with [1; 2]%nat in Hb. destruct b as [|[|[|]]]; try done; exfalso; apply Hb; rewrite !elem_of_cons; lia.
  - intros i Hi. unfold ps, qs. split; left.
Qed.

Print Assumptions cfb_end_weights.
Print Assumptions cfb_null_pivot_refuted.
Print Assumptions cfb_one_trial.
Print Assumptions cfb_end_balance.
Print Assumptions cfb_bond_types_partial.
Print Assumptions cfb_bond_types_refuted.
