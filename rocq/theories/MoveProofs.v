(** Lemmas for MoveProps. *)
From stdpp Require Import gmap.
From Verif Require Import Base Vec3 BoxSpec McCellModel DomainModel SpeciesModel CellListModel CellListSpec CellListProofs
  PairListModel PairListSpec EnergyModel EnergySpec EnergyProofs MoveModel MoveSpec.
From Coq Require Import Reals Lra.
Local Open Scope R_scope.

Lemma move_eq pos a v : move pos a v a = v.
Proof. unfold move. by rewrite decide_True. Qed.
Lemma move_ne pos a v b : b <> a -> move pos a v b = pos b.
Proof. intros H. unfold move. by rewrite decide_False. Qed.

Lemma cl_proper_app toGen n N cap ops ops' : forall h, cl_proper toGen n N cap h (ops ++ ops') <->
  cl_proper toGen n N cap h ops /\ cl_proper toGen n N cap (fold_left at_step ops h) ops'.
Proof. induction ops as [|o ops IH]; intros h; cbn [app cl_proper fold_left]; [tauto|]. rewrite IH. tauto. Qed.

Lemma grid_unique lens cut n : positive3 lens -> 0 < cut -> grid_of lens cut n -> n = vmap (fun x => axis_num x cut) lens.
Proof.
  intros HL Hc HG. apply vec3_ext. intros i Hi.
  assert (vget (vmap (fun x => axis_num x cut) lens) i = axis_num (vget lens i) cut) as -> by (destruct i as [|[|[|]]]; try lia; done).
  destruct (HG i Hi) as (A1 & A2 & A3).
  assert (0 < vget lens i) as HLi by (destruct HL as (? & ? & ?); destruct i as [|[|[|]]]; try lia; done).
  destruct (axis_num_count _ _ Hc HLi) as (B1 & B2 & B3). set (m := axis_num (vget lens i) cut) in *.
  assert (~ (vget n i < m)%Z).
  { intros Hlt. destruct B3 as [B3|B3]; [lia|]. assert (IZR (vget n i + 1) <= IZR m) by (apply IZR_le; lia). nra. }
  assert (~ (m < vget n i)%Z).
  { intros Hlt. destruct A3 as [A3|A3]; [lia|]. assert (IZR (m + 1) <= IZR (vget n i)) by (apply IZR_le; lia). nra. }
  lia.
Qed.

Section Hold.
  Context (M cap : nat) (HM : (2 <= M)%nat) (toGen : vec3 R -> vec3 R) (lens : vec3 R) (cut : R) (n : vec3 Z) (A : list nat).
  Context (HL : positive3 lens) (Hc : 0 < cut) (HG : grid_of lens cut n).
  Local Notation hold := (holding M cap toGen lens cut n A).

  Lemma holding_ext l Q Q' : hold l Q -> (forall a, a ∈ A -> Q a = Q' a) -> hold l Q'.
  Proof.
    intros (l0 & l1 & ops & H1 & H2 & H3 & H4 & H5) E. exists l0, l1, ops. split_and!; [done..|].
    intros a. rewrite H5. destruct (decide (a ∈ A)) as [Ha|]; [by rewrite E|done].
  Qed.
  Lemma holding_clinv l Q : hold l Q -> exists h, clinv M cap toGen n l h /\
    forall a, h !! a = if decide (a ∈ A) then Some (Q a) else None.
  Proof.
    intros (l0 & l1 & ops & H1 & H2 & H3 & H4 & H5). exists (holds ops). split; [|done].
    destruct (gwf_setup M cap HM toGen n lens cut l0 Hc HL H1 (grid_unique lens cut n HL Hc HG)) as (l1' & Hl1 & I1 & _).
    rewrite H2 in Hl1. injection Hl1 as <-.
    destruct (clinv_run M cap HM toGen n ops l1 ∅ I1 H3) as (l' & Hrun & I). rewrite H4 in Hrun. by injection Hrun as <-.
  Qed.
  Lemma holding_prim l Q a : hold l Q -> a ∈ A -> primary (toGen (Q a)).
  Proof.
    intros H Ha. destruct (holding_clinv l Q H) as (h & I & Hh). apply (ci_prim _ _ _ _ _ _ I a (Q a)). rewrite Hh. by rewrite decide_True.
  Qed.
  Lemma holding_update l Q a p : hold l Q -> a ∈ A -> primary (toGen p) -> ~ crowded toGen n (M - 1) A (move Q a p) ->
    exists l', cl_update M toGen l a p = Ok l' /\ hold l' (move Q a p).
  Proof.
    intros H Ha Hp Hu. destruct (holding_clinv l Q H) as (h & I & Hh).
    destruct H as (l0 & l1 & ops & H1 & H2 & H3 & H4 & H5).
    assert (h = holds ops) as Eh. { apply map_eq. intros b. by rewrite Hh, H5. }
    assert (is_Some (h !! a)) as Hs by (rewrite Hh, decide_True by done; eauto).
    assert (room toGen n (M - 2) (delete a h) (toGen p)) as Hr.
    { intros ks Hnd Hks. destruct (decide (length ks <= M - 2)%nat) as [|Hlong]; [done|]. exfalso. apply Hu.
      pose proof (ci_wf _ _ _ _ _ _ I) as W.
      set (c := ccell n (toGen p)). assert (Hin : forall g c', primary g -> in_cell n c' g -> c' = ccell n g).
      { intros g [x y z] Hg Hi. unfold ccell. f_equal; symmetry.
        - apply (in_cell_axis _ x _ (g_pos _ _ W 0%nat ltac:(lia))); [apply (Hg 0%nat ltac:(lia))|apply (Hi 0%nat ltac:(lia))].
        - apply (in_cell_axis _ y _ (g_pos _ _ W 1%nat ltac:(lia))); [apply (Hg 1%nat ltac:(lia))|apply (Hi 1%nat ltac:(lia))].
        - apply (in_cell_axis _ z _ (g_pos _ _ W 2%nat ltac:(lia))); [apply (Hg 2%nat ltac:(lia))|apply (Hi 2%nat ltac:(lia))]. }
      assert (Hinc : in_cell n c (toGen p)).
      { intros i Hi. apply in_cell_axis; [by apply W|by apply Hp|]. destruct i as [|[|[|]]]; try lia; done. }
      assert (a ∉ ks) as Hak. { intros Hin'. destruct (Hks a Hin') as (q & Hq & _). by rewrite lookup_delete in Hq. }
      exists c, (a :: ks). split_and!.
      - apply NoDup_cons. done.
      - intros b Hb. apply elem_of_cons in Hb as [->|Hb]; [done|]. destruct (Hks b Hb) as (q & Hq & _).
        rewrite lookup_delete_ne in Hq by (intros <-; done). rewrite Hh in Hq. by destruct (decide (b ∈ A)).
      - intros b Hb. apply elem_of_cons in Hb as [->|Hb]; [by rewrite move_eq|].
        assert (b <> a) as Hne by (by intros ->). rewrite move_ne by done.
        destruct (Hks b Hb) as (q & Hq & c' & Hcq & Hcp). rewrite lookup_delete_ne in Hq by done. rewrite Hh in Hq.
        destruct (decide (b ∈ A)); [|done]. injection Hq as ->. apply Hin in Hcp; [|done]. subst c'. done.
      - cbn. lia. }
    destruct (clinv_update M cap HM toGen n l h a p I Hs Hp Hr) as (l' & Hl' & _). exists l'. split; [done|].
    exists l0, l1, (ops ++ [CUpd a p]). split_and!; [done|done| | |].
    - apply cl_proper_app. split; [done|]. cbn [cl_proper]. fold (holds ops). rewrite <- Eh. done.
    - rewrite run_app, H4. cbn [obind run cl_step]. by rewrite Hl'.
    - intros b. unfold holds. rewrite fold_left_app. cbn [fold_left at_step]. fold (holds ops). unfold move. destruct (decide (b = a)) as [->|Hne].
      + by rewrite lookup_insert, decide_True.
      + rewrite lookup_insert_ne by done. apply H5.
  Qed.
End Hold.

(** ** Mirrors and types *)
Lemma find_lookup (mol : list nat) i a : NoDup mol -> mol !! i = Some a -> list_find (fun b => b = a) mol = Some (i, a).
Proof.
  intros Hnd Hi. apply list_find_Some. split; [done|]. split; [done|]. intros j y Hj Hlt ->.
  pose proof (NoDup_lookup _ _ _ _ Hnd Hi Hj). lia.
Qed.
Lemma mirror_at mol i a b : NoDup mol -> mol !! i = Some a -> rev mol !! i = Some b -> mirror mol a = b.
Proof. intros Hnd Hi Hb. unfold mirror. rewrite (find_lookup mol i a Hnd Hi). by rewrite Hb. Qed.
Lemma rev_at {T} (mol : list T) i : (i < length mol)%nat -> rev mol !! i = mol !! (length mol - 1 - i)%nat.
Proof.
  intros Hi. rewrite rev_alt. change (rev_append mol []) with (reverse mol). rewrite reverse_lookup by done. f_equal. lia.
Qed.
Lemma mirror_out mol a : a ∉ mol -> mirror mol a = a.
Proof.
  intros Ha. unfold mirror. destruct (list_find (fun b => b = a) mol) as [[i b]|] eqn:E; [|done].
  apply list_find_Some in E as (Hi & -> & _). exfalso. apply Ha. by eapply elem_of_list_lookup_2.
Qed.
Lemma mirror_some mol a : NoDup mol -> a ∈ mol -> exists i, (i < length mol)%nat /\ mol !! i = Some a /\ mol !! (length mol - 1 - i)%nat = Some (mirror mol a).
Proof.
  intros Hnd Ha. apply elem_of_list_lookup in Ha as [i Hi]. pose proof (lookup_lt_Some _ _ _ Hi) as Hlt.
  destruct (lookup_lt_is_Some_2 mol (length mol - 1 - i)) as [b Hb]; [lia|]. exists i. split; [done|]. split; [done|].
  rewrite (mirror_at mol i a b); [done|done|done|]. by rewrite rev_at.
Qed.
Lemma mirror_in mol a : NoDup mol -> a ∈ mol -> mirror mol a ∈ mol.
Proof. intros Hnd Ha. destruct (mirror_some mol a Hnd Ha) as (i & _ & _ & Hb). by eapply elem_of_list_lookup_2. Qed.
Lemma mirror_invol mol a : NoDup mol -> mirror mol (mirror mol a) = a.
Proof.
  intros Hnd. destruct (decide (a ∈ mol)) as [Ha|Ha]; [|by rewrite (mirror_out mol a Ha), (mirror_out mol a Ha)].
  destruct (mirror_some mol a Hnd Ha) as (i & Hlt & Hi & Hb).
  apply (mirror_at mol (length mol - 1 - i) _ _ Hnd Hb). rewrite rev_at by lia.
  replace (length mol - 1 - (length mol - 1 - i))%nat with i by lia. done.
Qed.
Lemma mirror_rev mol : NoDup mol -> map (mirror mol) mol = rev mol.
Proof.
  intros Hnd. apply list_eq. intros i. rewrite list_lookup_fmap. destruct (mol !! i) as [a|] eqn:E.
  - pose proof (lookup_lt_Some _ _ _ E) as Hlt. cbn. rewrite rev_at by done.
    destruct (lookup_lt_is_Some_2 mol (length mol - 1 - i)) as [b Hb]; [lia|]. rewrite Hb. f_equal.
    apply (mirror_at mol i); [done|done|]. by rewrite rev_at.
  - cbn. symmetry. apply lookup_ge_None. rewrite rev_length. by apply lookup_ge_None.
Qed.
Lemma mirror_perm (A mol : list nat) : NoDup A -> NoDup mol -> mol ⊆ A -> map (mirror mol) A ≡ₚ A.
Proof.
  intros HA Hnd Hsub. apply NoDup_Permutation; [|done|].
  - apply NoDup_fmap_2; [|done]. intros x y E. rewrite <- (mirror_invol mol x), <- (mirror_invol mol y) by done. by rewrite E.
  - intros a. assert (forall b, b ∈ A -> mirror mol b ∈ A) as Hin.
    { intros b Hb. destruct (decide (b ∈ mol)); [by apply Hsub, mirror_in|by rewrite mirror_out]. }
    rewrite elem_of_list_fmap. split; [intros (b & -> & Hb); by apply Hin|]. intros Ha. exists (mirror mol a).
    split; [by rewrite mirror_invol|by apply Hin].
Qed.

Lemma retype_out ty mol ts b : b ∉ mol -> retype ty mol ts b = ty b.
Proof.
  unfold retype. revert ty ts. induction mol as [|x mol IH]; intros ty ts Hb; [done|]. destruct ts as [|t ts]; [done|].
  rewrite not_elem_of_cons in Hb. destruct Hb as [H1 H2]. cbn [zip zip_with fold_left fst snd]. unfold zip in IH. rewrite IH by done.
  by rewrite decide_False.
Qed.
Lemma retype_in ty mol ts i b t : NoDup mol -> mol !! i = Some b -> ts !! i = Some t -> retype ty mol ts b = t.
Proof.
  revert ty ts i. induction mol as [|x mol IH]; intros ty ts i Hnd Hi Ht; [done|]. apply NoDup_cons in Hnd as [Hx Hnd].
  destruct ts as [|t' ts]; [done|]. unfold retype. cbn [zip zip_with fold_left fst snd].
  destruct i as [|i]; cbn in Hi, Ht.
  - injection Hi as ->. injection Ht as ->. pose proof (retype_out (fun b' => if decide (b' = b) then t else ty b') mol ts b Hx) as E.
    unfold retype in E. etrans; [exact E|]. cbn. by rewrite decide_True.
  - apply (IH (fun b' => if decide (b' = x) then t' else ty b') ts i); done.
Qed.
Lemma retype_mirror ty mol b : NoDup mol -> retype ty mol (map ty (rev mol)) b = ty (mirror mol b).
Proof.
  intros Hnd. destruct (decide (b ∈ mol)) as [Hb|Hb]; [|by rewrite retype_out, mirror_out].
  destruct (mirror_some mol b Hnd Hb) as (i & Hlt & Hi & Hm). apply (retype_in ty mol _ i b _ Hnd Hi).
  rewrite list_lookup_fmap, rev_at by done. rewrite Hm. done.
Qed.
Lemma retype_const ty mol t b : NoDup mol -> retype ty mol (map (fun _ => t) mol) b = if decide (b ∈ mol) then t else ty b.
Proof.
  intros Hnd. case_decide as Hb; [|by apply retype_out]. apply elem_of_list_lookup in Hb as [i Hi].
  apply (retype_in ty mol _ i b _ Hnd Hi). rewrite list_lookup_fmap, Hi. done.
Qed.

Section Kinds.
  Context (A : list nat).
  Definition gid (k : gkind) (pos : nat -> vec3 R) (a id : nat) : R :=
    match kGrp k (kMolOf k a) !! id with Some g => kE k (map pos (gAt g)) (gTy g) | None => 0 end.
  Lemma kind_atom_eq s k a : kind_ok A k -> a ∈ A -> kind_atom s k a = Ok (sum_over (kIds k a) (gid k (sPos s) a)).
  Proof.
    intros [_ Hk] Ha. destruct (Hk a Ha) as (_ & _ & Hid & _). unfold kind_atom.
    rewrite (foldM_sum_ext _ (gid k (sPos s) a)); [by rewrite Rplus_0_l|].
    intros e id Hin. apply Hid in Hin as (g & Hg & _). unfold aget, gid. rewrite Hg. done.
  Qed.
  Lemma kind_delta pos pos' k a : kind_ok A k -> a ∈ A -> (forall b, b <> a -> pos' b = pos b) ->
    bonded_energy pos' k - bonded_energy pos k = sum_over (kIds k a) (gid k pos' a) - sum_over (kIds k a) (gid k pos a).
  Proof.
    intros [Hnd Hk] Ha Hp. destruct (Hk a Ha) as (Hmol & Hids & Hid & Hout). unfold bonded_energy. rewrite <- !sum_minus.
    assert (Hsame : forall g, a ∉ gAt g -> map pos' (gAt g) = map pos (gAt g)).
    { intros g Hg. apply map_ext_in. intros b Hb. apply Hp. intros ->. apply Hg. by apply elem_of_list_In. }
    rewrite (sum_one _ (kMols k) (kMolOf k a) Hnd Hmol).
    - rewrite <- sum_minus, sum_index.
      symmetry. rewrite <- (sum_sub (fun i => match kGrp k (kMolOf k a) !! i with Some x => _ | None => 0 end) (kIds k a)).
      + apply sum_ext. intros id _. unfold gid. destruct (kGrp k (kMolOf k a) !! id); ring.
      + done.
      + intros id Hin. apply Hid in Hin as (g & Hg & _). apply elem_of_seq. split; [lia|]. cbn. by eapply lookup_lt_Some.
      + apply NoDup_seq.
      + intros id _ Hn. destruct (kGrp k (kMolOf k a) !! id) as [g|] eqn:Hg; [|done].
        rewrite Hsame; [ring|]. intros Hin. apply Hn, Hid. eauto.
    - intros m Hm Hne. rewrite <- sum_minus. apply sum_0. intros g Hg. rewrite Hsame; [ring|]. intros Hin. apply Hne. by eapply Hout.
  Qed.
End Kinds.

Section Sys.
  Context (M cap : nat) (HM : (2 <= M)%nat) (toGen : vec3 R -> vec3 R) (dist2 : vec3 R -> vec3 R -> R) (wrap : vec3 R -> vec3 R).
  Context (lens : vec3 R) (n : vec3 Z).
  Context (masked : nat -> nat -> bool) (u : R -> Z -> Z -> R) (cut : R) (kinds : list gkind) (ext : option (vec3 R -> Z -> R)).
  Context (molOf : nat -> nat) (beta : R) (A : list nat) (HA : NoDup A).
  Context (HL : positive3 lens) (Hc : 0 < cut) (HG : grid_of lens cut n).
  Context (Hadj : forall r q, primary (toGen r) -> primary (toGen q) -> dist2 r q < cut * cut ->
             adjacent n (ccell n (toGen r)) (ccell n (toGen q))).
  Context (Hcut : forall r t1 t2, cut * cut <= r -> u r t1 t2 = 0).
  Context (Hd : forall r q, dist2 r q = dist2 q r) (Hu : forall r t1 t2, u r t1 t2 = u r t2 t1)
          (Hm : forall i j, masked i j = masked j i).
  Context (Hk : Forall (kind_ok A) kinds).
  Local Notation hold := (holding M cap toGen lens cut n A).
  Local Notation E := (total_energy dist2 masked u kinds ext A).
  Local Notation ww := (w dist2 masked u).

  (** what atomPotentialEnergy adds up *)
  Definition sat (pos : nat -> vec3 R) (ty : nat -> Z) (a : nat) : R :=
    sum_over A (fun j => if decide (j = a) then 0 else ww pos ty a j) +
    sum_over kinds (fun k => sum_over (kIds k a) (gid k pos a)) +
    match ext with Some f => f (pos a) (ty a) | None => 0 end.

  Lemma sat_delta pos pos' ty a : a ∈ A -> (forall b, b <> a -> pos' b = pos b) -> E pos' ty - E pos ty = sat pos' ty a - sat pos ty a.
  Proof.
    intros Ha Hp. unfold total_energy, sat.
    assert (pair_energy dist2 masked u A pos' ty - pair_energy dist2 masked u A pos ty =
      sum_over A (fun j => if decide (j = a) then 0 else ww pos' ty a j) - sum_over A (fun j => if decide (j = a) then 0 else ww pos ty a j)) as E1.
    { change (pair_energy dist2 masked u A pos' ty) with (half_pairs A (ww pos' ty)).
      change (pair_energy dist2 masked u A pos ty) with (half_pairs A (ww pos ty)).
      assert ([a] ⊆ A) as Hsub by (intros b ->%elem_of_list_singleton; done).
      rewrite (half_split A HA (ww pos' ty) [a]), (half_split A HA (ww pos ty) [a]); try done; try apply NoDup_singleton; try (by intros; apply w_sym).
      rewrite !touching_one. rewrite (half_ext A _ (fun i j => if decide (i ∈ [a] \/ j ∈ [a]) then 0 else ww pos ty i j)); [ring|].
      intros i j Hi Hj Hij. destruct (decide _) as [|Hn]; [done|]. rewrite !elem_of_list_singleton in Hn. unfold w. rewrite !Hp by tauto. done. }
    assert (sum_over kinds (bonded_energy pos') - sum_over kinds (bonded_energy pos) =
      sum_over kinds (fun k => sum_over (kIds k a) (gid k pos' a)) - sum_over kinds (fun k => sum_over (kIds k a) (gid k pos a))) as E2.
    { rewrite <- !sum_minus. apply sum_ext. intros k Hin. rewrite Forall_forall in Hk. apply (kind_delta A); [by apply Hk|done|done]. }
    assert (external_energy ext A pos' ty - external_energy ext A pos ty =
      match ext with Some f => f (pos' a) (ty a) | None => 0 end - match ext with Some f => f (pos a) (ty a) | None => 0 end) as E3.
    { unfold external_energy. rewrite <- !sum_minus. rewrite (sum_one _ A a HA Ha); [done|]. intros b _ Hb. rewrite Hp by done. ring. }
    lra.
  Qed.

  Lemma holding_but s Q X : hold (sCells s) Q -> (forall a, a ∈ A -> a ∉ X -> Q a = sPos s a) ->
    exists h, clinv M cap toGen n (sCells s) h /\ held_but A h (sPos s) X /\ forall a, h !! a = if decide (a ∈ A) then Some (Q a) else None.
  Proof.
    intros H HX. destruct (holding_clinv M cap HM toGen lens cut n A HL Hc HG _ _ H) as (h & I & Hh). exists h. split; [done|]. split; [|done]. split.
    - intros a. rewrite Hh. destruct (decide (a ∈ A)); split; try done; eauto. intros [? ?]. done.
    - intros a Ha Hn. rewrite Hh, decide_True by done. by rewrite HX.
  Qed.

  Lemma sys_atom_eq s Q a : hold (sCells s) Q -> a ∈ A -> (forall b, b ∈ A -> b <> a -> Q b = sPos s b) -> primary (toGen (sPos s a)) ->
    sys_atom M toGen dist2 masked u kinds ext s a = Ok (sat (sPos s) (sTy s) a).
  Proof.
    intros H Ha HQ Hp. destruct (holding_but s Q [a] H) as (h & I & Hh & _).
    { intros b Hb Hn. apply HQ; [done|]. intros ->. apply Hn. left. }
    unfold sys_atom. rewrite (pair_atom_eq M cap HM toGen dist2 n masked u cut A HA Hadj Hcut s h a I Hp Hh). cbn [obind].
    rewrite (foldM_sum (fun k => kind_atom s k a) (fun k => sum_over (kIds k a) (gid k (sPos s) a))).
    - cbn [obind]. done.
    - intros k Hin. rewrite Forall_forall in Hk. apply (kind_atom_eq A); [by apply Hk|done].
  Qed.

  Lemma sys_total_eq s : hold (sCells s) (sPos s) -> sys_total M dist2 masked u kinds ext A s = Ok (E (sPos s) (sTy s)).
  Proof.
    intros H. destruct (holding_but s (sPos s) [] H) as (h & I & Hh & _); [done|]. unfold sys_total.
    rewrite (pair_total_eq M cap HM toGen dist2 n masked u cut A HA Hadj Hcut s h I Hh). cbn [obind]. f_equal.
    unfold total_energy, ext_total, external_energy. rewrite !fold_sum, Rplus_0_l. f_equal. f_equal.
    apply sum_ext. intros k _. unfold kind_total, bonded_energy.
    rewrite (fold_sum_ext _ (fun m => sum_over (kGrp k m) (fun g => kE k (map (sPos s) (gAt g)) (gTy g)))); [ring|].
    intros e' m _. rewrite fold_sum. done.
  Qed.

  Lemma displace_gen s a d r : hold (sCells s) (sPos s) -> a ∈ A ->
    let pos' := move (sPos s) a (wrap (vadd (sPos s a) d)) in
    primary (toGen (pos' a)) -> ~ crowded toGen n (M - 1) A pos' ->
    let dE := E pos' (sTy s) - E (sPos s) (sTy s) in
    exists s' ok, atom_displace M toGen dist2 wrap masked u kinds ext beta s a d r = Ok (dE, s', ok) /\
      ok = metropolis (boltzmann beta dE) r /\
      if ok then (forall b, sPos s' b = pos' b) /\ (forall b, sTy s' b = sTy s b) /\ hold (sCells s') (sPos s')
      else same_state s' s.
  Proof.
    intros H Ha pos' Hp Hcr dE. unfold atom_displace.
    rewrite (sys_atom_eq s (sPos s) a H Ha) by (done || by apply (holding_prim M cap HM toGen lens cut n A HL Hc HG _ _ _ H)). cbn [obind].
    fold pos'. rewrite (sys_atom_eq (MC pos' (sTy s) (sCells s)) (sPos s) a); cbn [sPos sTy sCells]; [|done|done| |done].
    2:{ intros b _ Hb. unfold pos'. by rewrite move_ne. }
    cbn [obind]. assert (sat pos' (sTy s) a - sat (sPos s) (sTy s) a = dE) as ->.
    { symmetry. apply sat_delta; [done|]. intros b Hb. unfold pos'. by rewrite move_ne. }
    destruct (metropolis (boltzmann beta dE) r) eqn:Em.
    - unfold update_cell. cbn [sPos sTy sCells].
      destruct (holding_update M cap HM toGen lens cut n A HL Hc HG (sCells s) (sPos s) a (pos' a) H Ha Hp) as (l' & -> & Hl').
      { unfold pos' at 1. rewrite move_eq. done. }
      cbn [obind]. eexists _, true. split; [done|]. split; [done|]. cbn [sPos sTy sCells]. split; [done|]. split; [done|].
      eapply holding_ext; [exact Hl'|]. intros b _. unfold pos'. by rewrite move_eq.
    - eexists _, false. split; [done|]. split; [done|]. split; [|done]. cbn [sPos]. intros b. unfold pos', move.
      repeat case_decide; subst; done.
  Qed.

  Lemma build_fold (Q : nat -> vec3 R) : (forall a, a ∈ A -> primary (toGen (Q a)) /\ (a < cap)%nat) ->
    ~ crowded toGen n (M - 1) A Q -> forall rest pre s l0 l1 ops, A = pre ++ rest -> (forall a, a ∈ rest -> wrap (sPos s a) = Q a) ->
    (forall a, a ∈ pre -> sPos s a = Q a) ->
    length (clTags l0) = cap -> cl_setup M lens cut l0 = Ok l1 ->
    cl_proper toGen n (M - 2) cap ∅ ops -> run (cl_step M toGen) l1 ops = Ok (sCells s) ->
    (forall a, holds ops !! a = if decide (a ∈ pre) then Some (Q a) else None) ->
    exists s', foldM (mc_enter M toGen wrap) s rest = Ok s' /\ hold (sCells s') (sPos s') /\ (forall a, a ∈ A -> sPos s' a = Q a) /\
      (forall a, a ∉ rest -> sPos s' a = sPos s a) /\ (forall a, sTy s' a = sTy s a).
  Proof.
    intros HQ Hcr. induction rest as [|x rest IH]; intros pre s l0 l1 ops HAe Hw Hpre H1 H2 H3 H4 H5; cbn [foldM].
    - rewrite app_nil_r in HAe. exists s. split; [done|]. split.
      + exists l0, l1, ops. split_and!; [done..|]. intros a. rewrite H5. rewrite HAe. case_decide; [by rewrite Hpre|done].
      + split; [intros a Ha; apply Hpre; by rewrite <- HAe|]. done.
    - assert (x ∈ A) as Hx by (rewrite HAe; apply elem_of_app; right; left). destruct (HQ x Hx) as [Hpx Hxc].
      assert (x ∉ pre /\ x ∉ rest) as [Hxp Hxr].
      { rewrite HAe in HA. apply NoDup_app in HA as (_ & Hdis & Hr). apply NoDup_cons in Hr as [Hr _]. split; [|done].
        intros Hin. apply (Hdis x Hin). left. }
      unfold mc_enter at 1. cbn [sPos sCells sTy]. rewrite move_eq. rewrite (Hw x) by left.
      destruct (gwf_setup M cap HM toGen n lens cut l0 Hc HL H1 (grid_unique lens cut n HL Hc HG)) as (l1' & Hl1 & I1 & _).
      rewrite H2 in Hl1. injection Hl1 as <-.
      destruct (clinv_run M cap HM toGen n ops l1 ∅ I1 H3) as (l' & Hrun & I). rewrite H4 in Hrun. injection Hrun as <-.
      fold (holds ops) in I. pose proof (ci_wf _ _ _ _ _ _ I) as W.
      assert (holds ops !! x = None) as Hnone by (rewrite H5; by rewrite decide_False).
      assert (room toGen n (M - 2) (holds ops) (toGen (Q x))) as Hr.
      { intros ks Hnd Hks. destruct (decide (length ks <= M - 2)%nat) as [|Hlong]; [done|]. exfalso. apply Hcr.
        set (c := ccell n (toGen (Q x))). assert (Hin : forall g c', primary g -> in_cell n c' g -> c' = ccell n g).
        { intros g [a b z] Hg Hi. unfold ccell. f_equal; symmetry.
          - apply (in_cell_axis _ a _ (g_pos _ _ W 0%nat ltac:(lia))); [apply (Hg 0%nat ltac:(lia))|apply (Hi 0%nat ltac:(lia))].
          - apply (in_cell_axis _ b _ (g_pos _ _ W 1%nat ltac:(lia))); [apply (Hg 1%nat ltac:(lia))|apply (Hi 1%nat ltac:(lia))].
          - apply (in_cell_axis _ z _ (g_pos _ _ W 2%nat ltac:(lia))); [apply (Hg 2%nat ltac:(lia))|apply (Hi 2%nat ltac:(lia))]. }
        assert (Hinc : in_cell n c (toGen (Q x))).
        { intros i Hi. apply in_cell_axis; [by apply W|by apply Hpx|]. destruct i as [|[|[|]]]; try lia; done. }
        assert (Hks' : forall b, b ∈ ks -> b ∈ pre /\ in_cell n c (toGen (Q b))).
        { intros b Hb. destruct (Hks b Hb) as (q & Hq & c' & Hcq & Hcp). rewrite H5 in Hq. case_decide; [|done]. injection Hq as <-.
          apply Hin in Hcp; [|done]. by subst c'. }
        exists c, (x :: ks). split_and!.
        - apply NoDup_cons. split; [|done]. intros Hin'. by apply Hks' in Hin' as [? _].
        - intros b Hb. apply elem_of_cons in Hb as [->|Hb]; [done|]. rewrite HAe. apply elem_of_app. left. by apply Hks'.
        - intros b Hb. apply elem_of_cons in Hb as [->|Hb]; [done|]. by apply Hks'.
        - cbn. lia. }
      destruct (clinv_add M cap HM toGen n (sCells s) (holds ops) x (Q x) I Hxc Hnone Hpx Hr) as (l' & Hl' & I').
      rewrite Hl'. cbn [obind].
      destruct (IH (pre ++ [x]) (MC (move (sPos s) x (Q x)) (sTy s) l') l0 l1 (ops ++ [CAdd x (Q x)])) as (s' & Hs' & B1 & B2 & B3 & B4).
      + by rewrite <- app_assoc.
      + intros a Ha. cbn [sPos]. rewrite move_ne by (by intros ->). apply Hw. by right.
      + intros a Ha. cbn [sPos]. destruct (decide (a = x)) as [->|Hne]; [by rewrite move_eq|]. rewrite move_ne by done.
        apply elem_of_app in Ha as [Ha|Ha]; [by apply Hpre|]. by apply elem_of_list_singleton in Ha.
      + done.
      + done.
      + apply cl_proper_app. split; [done|]. cbn [cl_proper]. fold (holds ops). done.
      + rewrite run_app, H4. cbn [obind run cl_step sCells]. by rewrite Hl'.
      + intros a. unfold holds. rewrite fold_left_app. cbn [fold_left at_step]. fold (holds ops). destruct (decide (a = x)) as [->|Hne].
        * rewrite lookup_insert, decide_True; [done|]. apply elem_of_app. right. left.
        * rewrite lookup_insert_ne by done. rewrite H5. apply decide_ext. rewrite elem_of_app, elem_of_list_singleton. tauto.
      + exists s'. split; [done|]. split; [done|]. split; [done|]. cbn [sPos sTy] in *. split; [|done].
        intros a Ha. rewrite not_elem_of_cons in Ha. destruct Ha as [Ha1 Ha2]. rewrite B3 by done. by rewrite move_ne.
  Qed.
  Lemma build_gen s : length (clTags (sCells s)) = cap -> (forall a, a ∈ A -> primary (toGen (wrap (sPos s a))) /\ (a < cap)%nat) ->
    ~ crowded toGen n (M - 1) A (fun a => wrap (sPos s a)) ->
    exists s', mc_build M toGen wrap lens cut A s = Ok s' /\ hold (sCells s') (sPos s') /\
      (forall a, a ∈ A -> sPos s' a = wrap (sPos s a)) /\ (forall a, a ∉ A -> sPos s' a = sPos s a) /\ (forall a, sTy s' a = sTy s a).
  Proof.
    intros Hcap HQ Hcr. unfold mc_build.
    destruct (gwf_setup M cap HM toGen n lens cut _ Hc HL Hcap (grid_unique lens cut n HL Hc HG)) as (l1 & Hl1 & I1 & _).
    rewrite Hl1. cbn [obind].
    destruct (build_fold (fun a => wrap (sPos s a)) HQ Hcr A [] (MC (sPos s) (sTy s) l1) (sCells s) l1 []) as (s' & H); try done.
    - by intros a ?%elem_of_nil.
    - exists s'. done.
  Qed.

  (** ** Rigid displacement *)
  Lemma rigid_old s mol : hold (sCells s) (sPos s) -> mol ⊆ A ->
    foldM (fun e a => let? ea := rigid_atom M toGen dist2 masked u ext s a in Ok (e + ea)) 0 mol =
    Ok (sum_over mol (fun a => sum_over A (fun j => if decide (j = a) then 0 else ww (sPos s) (sTy s) a j) + ext_atom ext s a)).
  Proof.
    intros H Hsub. rewrite (foldM_sum _ (fun a => sum_over A (fun j => if decide (j = a) then 0 else ww (sPos s) (sTy s) a j) + ext_atom ext s a));
      [by rewrite Rplus_0_l|].
    intros a Ha. apply Hsub in Ha. unfold rigid_atom. destruct (holding_but s (sPos s) [a] H) as (h & I & Hh & _); [done|].
    rewrite (pair_atom_eq M cap HM toGen dist2 n masked u cut A HA Hadj Hcut s h a I) by (done || by apply (holding_prim M cap HM toGen lens cut n A HL Hc HG _ _ _ H)).
    done.
  Qed.

  Definition rigid_new (s : mcs) (d : vec3 R) (mol : list nat) : nat -> vec3 R :=
    fun b => if decide (b ∈ mol) then wrap (vadd (sPos s b) d) else sPos s b.

  (** when no two atoms of the molecule interact *)
  Lemma rigid_fold s d mol : hold (sCells s) (sPos s) -> mol ⊆ A -> NoDup mol ->
    (forall i j, i ∈ mol -> j ∈ mol -> i <> j -> masked i j = true) ->
    (forall a, a ∈ mol -> primary (toGen (wrap (vadd (sPos s a) d)))) ->
    forall rest pre t e, mol = pre ++ rest -> (forall b, sPos t b = if decide (b ∈ pre) then wrap (vadd (sPos s b) d) else sPos s b) ->
    sTy t = sTy s -> sCells t = sCells s ->
    exists t', foldM (rigid_step M toGen dist2 wrap masked u ext d) (t, e) rest =
        Ok (t', e + sum_over rest (fun a => sum_over A (fun j => if decide (j = a) then 0 else ww (rigid_new s d mol) (sTy s) a j) +
                                  ext_atom ext (MC (rigid_new s d mol) (sTy s) (sCells s)) a)) /\
      (forall b, sPos t' b = rigid_new s d mol b) /\ sTy t' = sTy s /\ sCells t' = sCells s.
  Proof.
    intros H Hsub Hnd Hmask Hpr. induction rest as [|x rest IH]; intros pre t e Hmol Ht Hty Hcl; cbn [foldM].
    { exists t. rewrite sum_nil, Rplus_0_r. rewrite app_nil_r in Hmol. subst pre. done. }
    assert (x ∈ mol) as Hx by (rewrite Hmol; apply elem_of_app; right; left). pose proof (Hsub x Hx) as HxA.
    assert (x ∉ pre /\ x ∉ rest) as [Hxp Hxr].
    { rewrite Hmol in Hnd. apply NoDup_app in Hnd as (_ & Hdis & Hr). apply NoDup_cons in Hr as [Hr _]. split; [|done].
      intros Hin. apply (Hdis x Hin). left. }
    unfold rigid_step at 1. assert (sPos t x = sPos s x) as Etx by (rewrite Ht; by rewrite decide_False).
    rewrite Etx. set (t1 := MC (move (sPos t) x (wrap (vadd (sPos s x) d))) (sTy t) (sCells t)).
    assert (Hpos1 : forall b, sPos t1 b = if decide (b ∈ pre ++ [x]) then wrap (vadd (sPos s b) d) else sPos s b).
    { intros b. unfold t1. cbn [sPos]. destruct (decide (b = x)) as [->|Hne].
      - rewrite move_eq, decide_True; [done|]. apply elem_of_app. right. left.
      - rewrite move_ne by done. rewrite Ht. apply decide_ext. rewrite elem_of_app, elem_of_list_singleton. tauto. }
    assert (rigid_atom M toGen dist2 masked u ext t1 x = Ok (sum_over A (fun j => if decide (j = x) then 0 else ww (rigid_new s d mol) (sTy s) x j) +
               ext_atom ext (MC (rigid_new s d mol) (sTy s) (sCells s)) x)) as Ex.
    { assert (sPos t1 x = rigid_new s d mol x) as Epx.
      { rewrite Hpos1. unfold rigid_new. rewrite !decide_True; [done|done|]. apply elem_of_app. right. left. }
      unfold rigid_atom. assert (primary (toGen (sPos t1 x))) as Hp1.
      { rewrite Epx. unfold rigid_new. rewrite decide_True by done. by apply Hpr. }
      destruct (holding_but t1 (sPos s) mol) as (h & I & Hh & Hhl).
      { unfold t1. cbn [sCells]. by rewrite Hcl. }
      { intros b _ Hb. rewrite Hpos1. rewrite decide_False; [done|]. intros Hin. apply Hb. rewrite Hmol.
        apply elem_of_app in Hin as [|Hin]; apply elem_of_app; [by left|]. apply elem_of_list_singleton in Hin as ->. right. left. }
      destruct (pair_atom_nb M cap HM toGen dist2 n masked u t1 h x I Hp1) as (nb & Hnbd & Hel & ->). cbn [obind]. f_equal. f_equal.
      - rewrite (nb_sum toGen dist2 n u cut A HA Hadj Hcut h (sPos t1) (sTy t1) x _ nb (sPos t1 x) mol); [|done|done|done| |done| |].
        + apply sum_ext. intros j Hj. destruct (decide (j = x)) as [|Hne]; [done|]. unfold w.
          destruct (decide (j ∈ mol)) as [Hjm|Hjm]; [by rewrite (Hmask x j) by congruence|].
          assert (sPos t1 j = rigid_new s d mol j) as ->.
          { rewrite Hpos1. unfold rigid_new. rewrite !decide_False; [done|done|]. intros Hin. apply Hjm. rewrite Hmol.
            apply elem_of_app in Hin as [|Hin]; apply elem_of_app; [by left|]. apply elem_of_list_singleton in Hin as ->. right. left. }
          rewrite Epx. unfold t1. cbn [sTy]. by rewrite Hty.
        + intros b q Hbq. by apply (ci_prim _ _ _ _ _ _ I _ _ Hbq).
        + intros j Hj. destruct (decide (j = x)) as [|Hne]; [done|]. unfold w. by rewrite (Hmask x j) by congruence.
        + intros j _ E0. unfold w. rewrite E0. destruct (masked x j); by case_decide.
      - unfold ext_atom. rewrite Epx. unfold t1. cbn [sTy sPos]. by rewrite Hty. }
    rewrite Ex. cbn [obind].
    edestruct (IH (pre ++ [x]) t1) as (t' & Ht' & H1 & H2 & H3); [by rewrite <- app_assoc|exact Hpos1|done|done|].
    exists t'. rewrite Ht'. split; [|done]. f_equal. f_equal. rewrite sum_cons. ring.
  Qed.

  Lemma updates_fold (new : nat -> vec3 R) (mol : list nat) : mol ⊆ A -> NoDup mol -> forall rest pre t Q0,
    mol = pre ++ rest -> (forall b, b ∈ mol -> primary (toGen (new b))) ->
    (forall b, b ∈ mol -> sPos t b = new b) ->
    (forall k, (k <= length mol)%nat -> ~ crowded toGen n (M - 1) A (midway mol k new Q0)) ->
    hold (sCells t) (midway mol (length pre) new Q0) ->
    exists t', foldM (update_cell M toGen) t rest = Ok t' /\ sPos t' = sPos t /\ sTy t' = sTy t /\
      hold (sCells t') (midway mol (length mol) new Q0).
  Proof.
    intros Hsub Hnd. induction rest as [|x rest IH]; intros pre t Q0 Hmol Hpr Hpos Hcr Hh; cbn [foldM].
    { exists t. rewrite app_nil_r in Hmol. subst pre. done. }
    assert (x ∈ mol) as Hx by (rewrite Hmol; apply elem_of_app; right; left). pose proof (Hsub x Hx) as HxA.
    unfold update_cell at 1. rewrite (Hpos x Hx).
    assert (forall b, move (midway mol (length pre) new Q0) x (new x) b = midway mol (S (length pre)) new Q0 b) as Emid.
    { intros b. unfold midway. rewrite Hmol. replace (S (length pre)) with (length pre + 1)%nat by lia.
      rewrite firstn_app_2, take_app. cbn [firstn]. destruct (decide (b = x)) as [->|Hne].
      - rewrite move_eq, decide_True; [done|]. apply elem_of_app. right. left.
      - rewrite move_ne by done. apply decide_ext. rewrite elem_of_app, elem_of_list_singleton. tauto. }
    assert (S (length pre) <= length mol)%nat as Hlen by (rewrite Hmol, app_length; cbn; lia).
    destruct (holding_update M cap HM toGen lens cut n A HL Hc HG _ _ x (new x) Hh HxA (Hpr x Hx)) as (l' & -> & Hl').
    { intros (c & ks & K1 & K2 & K3 & K4). apply (Hcr (S (length pre)) Hlen). exists c, ks. split_and!; [done|done| |done].
      intros a Ha. rewrite <- Emid. by apply K3. }
    cbn [obind]. destruct (IH (pre ++ [x]) (MC (sPos t) (sTy t) l') Q0) as (t' & Ht' & E1 & E2 & E3).
    - by rewrite <- app_assoc.
    - done.
    - done.
    - done.
    - cbn [sCells]. rewrite app_length. cbn [length]. replace (length pre + 1)%nat with (S (length pre)) by lia.
      eapply holding_ext; [exact Hl'|]. intros b _. apply Emid.
    - exists t'. done.
  Qed.

  Lemma midway_full mol new old b : midway mol (length mol) new old b = if decide (b ∈ mol) then new b else old b.
  Proof. unfold midway. by rewrite firstn_all. Qed.
  Lemma place_fold (new : nat -> vec3 R) (mol : list nat) : mol ⊆ A -> NoDup mol -> forall rest pre t Q0,
    mol = pre ++ rest -> (forall b, b ∈ mol -> primary (toGen (new b))) ->
    (forall k, (k <= length mol)%nat -> ~ crowded toGen n (M - 1) A (midway mol k new Q0)) ->
    hold (sCells t) (midway mol (length pre) new Q0) -> (forall b, sPos t b = midway mol (length pre) new Q0 b) ->
    exists t', foldM (fun s x => update_cell M toGen (MC (move (sPos s) x.1 x.2) (sTy s) (sCells s)) x.1) t (zip rest (map new rest)) = Ok t' /\
      (forall b, sPos t' b = midway mol (length mol) new Q0 b) /\ sTy t' = sTy t /\ hold (sCells t') (midway mol (length mol) new Q0).
  Proof.
    intros Hsub Hnd. induction rest as [|x rest IH]; intros pre t Q0 Hmol Hpr Hcr Hh Hpos.
    { exists t. rewrite app_nil_r in Hmol. subst pre. done. }
    assert (x ∈ mol) as Hx by (rewrite Hmol; apply elem_of_app; right; left). pose proof (Hsub x Hx) as HxA.
    cbn [map zip zip_with foldM fst snd]. unfold update_cell at 1. cbn [sPos sTy sCells]. rewrite move_eq.
    assert (forall b, move (midway mol (length pre) new Q0) x (new x) b = midway mol (S (length pre)) new Q0 b) as Emid.
    { intros b. unfold midway. rewrite Hmol. replace (S (length pre)) with (length pre + 1)%nat by lia.
      rewrite firstn_app_2, take_app. cbn [firstn]. destruct (decide (b = x)) as [->|Hne].
      - rewrite move_eq, decide_True; [done|]. apply elem_of_app. right. left.
      - rewrite move_ne by done. apply decide_ext. rewrite elem_of_app, elem_of_list_singleton. tauto. }
    assert (S (length pre) <= length mol)%nat as Hlen by (rewrite Hmol, app_length; cbn; lia).
    destruct (holding_update M cap HM toGen lens cut n A HL Hc HG _ _ x (new x) Hh HxA (Hpr x Hx)) as (l' & -> & Hl').
    { intros (c & ks & K1 & K2 & K3 & K4). apply (Hcr (S (length pre)) Hlen). exists c, ks. split_and!; [done|done| |done].
      intros a Ha. rewrite <- Emid. by apply K3. }
    cbn [obind]. destruct (IH (pre ++ [x]) (MC (move (sPos t) x (new x)) (sTy t) l') Q0) as (t' & Ht' & E1 & E2 & E3).
    - by rewrite <- app_assoc.
    - done.
    - done.
    - cbn [sCells]. rewrite app_length. cbn [length]. replace (length pre + 1)%nat with (S (length pre)) by lia.
      eapply holding_ext; [exact Hl'|]. intros b _. apply Emid.
    - intros b. cbn [sPos]. rewrite app_length. cbn [length]. replace (length pre + 1)%nat with (S (length pre)) by lia.
      rewrite <- Emid. unfold move. case_decide; [done|apply Hpos].
    - exists t'. done.
  Qed.

  Lemma restore_all (mol : list nat) (p q : nat -> vec3 R) : NoDup mol -> forall b,
    fold_left (fun p x => move p x.1 x.2) (zip mol (map q mol)) p b = if decide (b ∈ mol) then q b else p b.
  Proof.
    revert p. induction mol as [|x mol IH]; intros p Hnd b; cbn [map zip zip_with fold_left]; [by rewrite decide_False by apply not_elem_of_nil|].
    apply NoDup_cons in Hnd as [Hx Hnd]. unfold zip in IH. rewrite IH by done. cbn [fst snd]. destruct (decide (b ∈ mol)) as [Hb|Hb].
    - rewrite decide_True; [done|by right].
    - destruct (decide (b = x)) as [->|Hne]; [rewrite move_eq, decide_True; [done|left]|]. rewrite move_ne by done.
      rewrite decide_False; [done|]. intros [|]%elem_of_cons; done.
  Qed.

  (** pair and external parts of the change, when no two atoms of the molecule interact *)
  Lemma rigid_delta s d mol : mol ⊆ A -> NoDup mol -> (forall i j, i ∈ mol -> j ∈ mol -> i <> j -> masked i j = true) ->
    let pos' := rigid_new s d mol in
    sum_over mol (fun a => sum_over A (fun j => if decide (j = a) then 0 else ww pos' (sTy s) a j) + ext_atom ext (MC pos' (sTy s) (sCells s)) a) -
    sum_over mol (fun a => sum_over A (fun j => if decide (j = a) then 0 else ww (sPos s) (sTy s) a j) + ext_atom ext s a) =
    (pair_energy dist2 masked u A pos' (sTy s) + external_energy ext A pos' (sTy s)) -
    (pair_energy dist2 masked u A (sPos s) (sTy s) + external_energy ext A (sPos s) (sTy s)).
  Proof.
    intros Hsub Hnd Hmask pos'.
    assert (HT : forall p, touching A (ww p (sTy s)) mol = sum_over mol (fun a => sum_over A (fun j => if decide (j = a) then 0 else ww p (sTy s) a j))).
    { intros p. apply sum_ext. intros i Hi. apply sum_ext. intros j Hj. destruct (decide (i = j)) as [->|Hne]; [by rewrite decide_True|].
      rewrite (decide_False (P := j = i)) by congruence. destruct (decide (j ∉ mol \/ (i < j)%nat)) as [|Hn]; [done|].
      unfold w. rewrite (Hmask i j); [done|done| |done]. destruct (decide (j ∈ mol)); [done|]. tauto. }
    rewrite !EnergyProofs.sum_plus, <- !HT.
    change (pair_energy dist2 masked u A pos' (sTy s)) with (half_pairs A (ww pos' (sTy s))).
    change (pair_energy dist2 masked u A (sPos s) (sTy s)) with (half_pairs A (ww (sPos s) (sTy s))).
    rewrite (half_split A HA (ww pos' (sTy s)) mol), (half_split A HA (ww (sPos s) (sTy s)) mol); try done; try (by intros; apply w_sym).
    rewrite (half_ext A (fun i j => if decide (i ∈ mol \/ j ∈ mol) then 0 else ww pos' (sTy s) i j)
               (fun i j => if decide (i ∈ mol \/ j ∈ mol) then 0 else ww (sPos s) (sTy s) i j)).
    2:{ intros i j _ _ _. destruct (decide _) as [|Hn]; [done|]. unfold w, pos', rigid_new. rewrite !(decide_False (P := _ ∈ mol)) by tauto. done. }
    assert (external_energy ext A pos' (sTy s) - external_energy ext A (sPos s) (sTy s) =
      sum_over mol (ext_atom ext (MC pos' (sTy s) (sCells s))) - sum_over mol (ext_atom ext s)) as EE; [|lra].
    unfold external_energy. rewrite <- !sum_minus. symmetry.
    rewrite (sum_sub (fun a => ext_atom ext (MC pos' (sTy s) (sCells s)) a - ext_atom ext s a) mol A Hnd Hsub HA); [done|].
    intros a _ Ha. unfold ext_atom, pos', rigid_new. cbn [sPos sTy]. rewrite decide_False by done. ring.
  Qed.

  Lemma rigid_gen s mol d r : hold (sCells s) (sPos s) -> mol ⊆ A -> NoDup mol ->
    (forall i j, i ∈ mol -> j ∈ mol -> i <> j -> masked i j = true) ->
    (forall a, a ∈ mol -> primary (toGen (wrap (vadd (sPos s a) d)))) ->
    let pos' := rigid_new s d mol in
    (forall k, (k <= length mol)%nat -> ~ crowded toGen n (M - 1) A (midway mol k pos' (sPos s))) ->
    let dE := (pair_energy dist2 masked u A pos' (sTy s) + external_energy ext A pos' (sTy s)) -
              (pair_energy dist2 masked u A (sPos s) (sTy s) + external_energy ext A (sPos s) (sTy s)) in
    exists s' ok, rigid_displace M toGen dist2 wrap masked u ext beta s mol d r = Ok (dE, s', ok) /\
      ok = metropolis (boltzmann beta dE) r /\
      if ok then (forall b, sPos s' b = pos' b) /\ (forall b, sTy s' b = sTy s b) /\ hold (sCells s') (sPos s')
      else same_state s' s.
  Proof.
    intros H Hsub Hnd Hmask Hpr pos' Hcr dE. unfold rigid_displace. rewrite (rigid_old s mol H Hsub). cbn [obind].
    destruct (rigid_fold s d mol H Hsub Hnd Hmask Hpr mol [] s 0 eq_refl) as (s1 & -> & Hp1 & Ht1 & Hc1); [done|done|done|].
    cbn [obind]. rewrite Rplus_0_l. pose proof (rigid_delta s d mol Hsub Hnd Hmask) as ED. cbv zeta in ED. rewrite ED. fold pos' dE.
    destruct (metropolis (boltzmann beta dE) r) eqn:Em.
    - destruct (updates_fold pos' mol Hsub Hnd mol [] s1 (sPos s) eq_refl) as (s2 & -> & E1 & E2 & E3).
      + intros b Hb. unfold pos', rigid_new. rewrite decide_True by done. by apply Hpr.
      + intros b _. apply Hp1.
      + done.
      + rewrite Hc1. eapply holding_ext; [exact H|]. intros b _. unfold midway. cbn [length]. rewrite take_0. rewrite decide_False; [done|apply not_elem_of_nil].
      + cbn [obind]. exists s2, true. split; [done|]. split; [done|]. rewrite E1, E2, Ht1. split; [exact Hp1|]. split; [done|].
        eapply holding_ext; [exact E3|]. intros b _. rewrite midway_full, Hp1. unfold pos', rigid_new. by case_decide.
    - eexists _, false. split; [done|]. split; [done|]. unfold same_state. cbn [sPos sTy sCells]. rewrite Ht1, Hc1. split; [|done].
      intros b. rewrite restore_all by done. rewrite Hp1. unfold rigid_new. by case_decide.
  Qed.

  (** ** Changing the types of a molecule *)
  Lemma mol_energy_eq s mol : hold (sCells s) (sPos s) -> mol ⊆ A ->
    (forall i j, i ∈ mol -> j ∈ A -> molOf i = molOf j <-> j ∈ mol) ->
    pair_mol M toGen dist2 masked u molOf s mol = Ok (touching A (ww (sPos s) (sTy s)) mol) /\
    mol_energy M toGen dist2 masked u ext molOf s mol =
      Ok (touching A (ww (sPos s) (sTy s)) mol + sum_over mol (ext_atom ext s)).
  Proof.
    intros H Hsub Hmol. destruct (holding_but s (sPos s) [] H) as (h & I & Hh & _); [done|].
    assert (pair_mol M toGen dist2 masked u molOf s mol = Ok (touching A (ww (sPos s) (sTy s)) mol)) as Ep.
    { by apply (pair_mol_eq M cap HM toGen dist2 n masked u cut molOf A HA Hadj Hcut s h mol I Hh). }
    split; [done|]. unfold mol_energy. rewrite Ep. cbn [obind]. by rewrite fold_sum.
  Qed.
  Lemma touching_delta pos ty ty' mol : mol ⊆ A -> NoDup mol -> (forall b, b ∉ mol -> ty' b = ty b) ->
    touching A (ww pos ty') mol - touching A (ww pos ty) mol =
    pair_energy dist2 masked u A pos ty' - pair_energy dist2 masked u A pos ty.
  Proof.
    intros Hsub Hnd Hty.
    change (pair_energy dist2 masked u A pos ty') with (half_pairs A (ww pos ty')).
    change (pair_energy dist2 masked u A pos ty) with (half_pairs A (ww pos ty)).
    rewrite (half_split A HA (ww pos ty') mol), (half_split A HA (ww pos ty) mol); try done; try (by intros; apply w_sym).
    rewrite (half_ext A (fun i j => if decide (i ∈ mol \/ j ∈ mol) then 0 else ww pos ty' i j)
               (fun i j => if decide (i ∈ mol \/ j ∈ mol) then 0 else ww pos ty i j)); [lra|].
    intros i j _ _ _. destruct (decide _) as [|Hn]; [done|]. unfold w. rewrite !Hty by tauto. done.
  Qed.
  Lemma ext_delta s t mol : mol ⊆ A -> NoDup mol -> (forall b, b ∉ mol -> sPos t b = sPos s b /\ sTy t b = sTy s b) ->
    sum_over mol (ext_atom ext t) - sum_over mol (ext_atom ext s) =
    external_energy ext A (sPos t) (sTy t) - external_energy ext A (sPos s) (sTy s).
  Proof.
    intros Hsub Hnd Hty. unfold external_energy. rewrite <- !sum_minus.
    rewrite (sum_sub (fun a => ext_atom ext t a - ext_atom ext s a) mol A Hnd Hsub HA); [done|].
    intros a _ Ha. unfold ext_atom. destruct (Hty a Ha) as [-> ->]. ring.
  Qed.

  Lemma end_swap_gen s mol types r : hold (sCells s) (sPos s) -> mol ⊆ A -> NoDup mol ->
    (forall i j, i ∈ mol -> j ∈ A -> molOf i = molOf j <-> j ∈ mol) ->
    map (sTy s) mol = types ->
    (forall i j, i ∈ A -> j ∈ A -> masked (mirror mol i) (mirror mol j) = masked i j) ->
    let pos' := fun b => sPos s (mirror mol b) in
    (forall k, (k <= length mol)%nat -> ~ crowded toGen n (M - 1) A (midway mol k pos' (sPos s))) ->
    let dE := (pair_energy dist2 masked u A pos' (sTy s) + external_energy ext A pos' (sTy s)) -
              (pair_energy dist2 masked u A (sPos s) (sTy s) + external_energy ext A (sPos s) (sTy s)) in
    exists s' ok, end_swap M toGen dist2 masked u ext molOf beta types s mol r = Ok (dE, s', ok) /\
      ok = metropolis (boltzmann beta dE) r /\
      if ok then (forall b, sPos s' b = pos' b) /\ (forall b, sTy s' b = sTy s b) /\ hold (sCells s') (sPos s')
      else same_state s' s.
  Proof.
    intros H Hsub Hnd Hmol Htypes Hmask pos' Hcr dE. unfold end_swap.
    rewrite (proj2 (mol_energy_eq s mol H Hsub Hmol)). cbn [obind].
    set (s1 := MC (sPos s) (retype (sTy s) mol (rev types)) (sCells s)).
    rewrite (proj2 (mol_energy_eq s1 mol H Hsub Hmol)). cbn [obind].
    assert (Hty1 : forall b, sTy s1 b = sTy s (mirror mol b)).
    { intros b. unfold s1. cbn [sTy]. rewrite <- Htypes, <- map_rev. by apply retype_mirror. }
    assert (Hty2 : forall b, retype (sTy s1) mol types b = sTy s b).
    { intros b. destruct (decide (b ∈ mol)) as [Hb|Hb].
      - apply elem_of_list_lookup in Hb as [i Hi].
        rewrite (retype_in (sTy s1) mol types i b (sTy s b) Hnd Hi); [done|]. rewrite <- Htypes. rewrite list_lookup_fmap, Hi. done.
      - rewrite retype_out by done. rewrite Hty1. by rewrite mirror_out. }
    assert (touching A (ww (sPos s1) (sTy s1)) mol + sum_over mol (ext_atom ext s1) -
            (touching A (ww (sPos s) (sTy s)) mol + sum_over mol (ext_atom ext s)) = dE) as ->.
    { pose proof (touching_delta (sPos s) (sTy s) (sTy s1) mol Hsub Hnd) as E1.
      pose proof (ext_delta s s1 mol Hsub Hnd) as E2.
      assert (Hout : forall b, b ∉ mol -> sTy s1 b = sTy s b).
      { intros b Hb. rewrite Hty1. by rewrite mirror_out. }
      specialize (E1 Hout). specialize (E2 ltac:(intros b Hb; split; [done|by apply Hout])).
      unfold s1 at 1. cbn [sPos].
      assert (pair_energy dist2 masked u A (sPos s) (sTy s1) = pair_energy dist2 masked u A pos' (sTy s)) as E3.
      { change (pair_energy dist2 masked u A (sPos s) (sTy s1)) with (half_pairs A (ww (sPos s) (sTy s1))).
        change (pair_energy dist2 masked u A pos' (sTy s)) with (half_pairs A (ww pos' (sTy s))).
        rewrite <- (half_perm A HA (ww (sPos s) (sTy s1)) (mirror mol)); [|by intros; apply w_sym|by apply mirror_perm].
        apply half_ext. intros i j Hi Hj _. unfold w. rewrite (Hmask i j Hi Hj). rewrite !Hty1.
        rewrite !mirror_invol by done. done. }
      assert (external_energy ext A (sPos s1) (sTy s1) = external_energy ext A pos' (sTy s)) as E4.
      { unfold external_energy. rewrite <- (sum_perm _ _ _ (mirror_perm A mol HA Hnd Hsub)), sum_map.
        apply sum_ext. intros a _. destruct ext; [|done]. rewrite Hty1, mirror_invol by done. done. }
      unfold dE. rewrite <- E3, <- E4. lra. }
    set (s2 := MC (sPos s1) (retype (sTy s1) mol types) (sCells s1)).
    destruct (metropolis (boltzmann beta dE) r) eqn:Em.
    - assert (rev (map (sPos s2) mol) = map pos' mol) as ->.
      { unfold s2, s1, pos'. cbn [sPos]. rewrite <- map_rev. rewrite <- (mirror_rev mol Hnd) at 1. by rewrite map_map. }
      destruct (place_fold pos' mol Hsub Hnd mol [] s2 (sPos s) eq_refl) as (s3 & -> & E1 & E2 & E3).
      + intros b Hb. apply (holding_prim M cap HM toGen lens cut n A HL Hc HG _ _ _ H). apply Hsub. by apply mirror_in.
      + done.
      + eapply holding_ext; [exact H|]. intros b _. unfold midway. cbn [length]. rewrite take_0. rewrite decide_False; [done|apply not_elem_of_nil].
      + intros b. unfold midway. cbn [length]. rewrite take_0. rewrite decide_False; [done|apply not_elem_of_nil].
      + cbn [obind]. exists s3, true. split; [done|]. split; [done|].
        assert (forall b, sPos s3 b = pos' b) as HP.
        { intros b. rewrite E1, midway_full. case_decide as Hb; [done|]. unfold pos'. by rewrite mirror_out. }
        split; [done|]. split; [intros b; rewrite E2; apply Hty2|].
        eapply holding_ext; [exact E3|]. intros b _. by rewrite E1.
    - exists s2, false. split; [done|]. split; [done|]. split; [done|]. split; [apply Hty2|done].
  Qed.

  Lemma semigrand_gen typeOf wt s mol st r : hold (sCells s) (sPos s) -> mol ⊆ A -> NoDup mol ->
    (forall i j, i ∈ mol -> j ∈ A -> molOf i = molOf j <-> j ∈ mol) ->
    (forall a, a ∈ mol -> sTy s a = typeOf st) ->
    let new := if decide (st = 0%Z) then 1%Z else 0%Z in
    let ty' := fun b => if decide (b ∈ mol) then typeOf new else sTy s b in
    let dE := pair_energy dist2 masked u A (sPos s) ty' - pair_energy dist2 masked u A (sPos s) (sTy s) in
    exists s' st' ok, semigrand M toGen dist2 masked u molOf beta typeOf wt s mol st r = Ok (dE, s', st', ok) /\
      ok = metropolis (boltzmann beta dE * wt new / wt st) r /\
      if ok then (forall b, sPos s' b = sPos s b) /\ (forall b, sTy s' b = ty' b) /\ sCells s' = sCells s /\ st' = new
      else same_state s' s /\ st' = st.
  Proof.
    intros H Hsub Hnd Hmol Hst new ty' dE. unfold semigrand.
    rewrite (proj1 (mol_energy_eq s mol H Hsub Hmol)). cbn [obind]. fold new.
    set (s1 := MC (sPos s) (retype (sTy s) mol (map (fun _ => typeOf new) mol)) (sCells s)).
    rewrite (proj1 (mol_energy_eq s1 mol H Hsub Hmol)). cbn [obind].
    assert (Hty1 : forall b, sTy s1 b = ty' b). { intros b. unfold s1. cbn [sTy]. by apply retype_const. }
    assert (touching A (ww (sPos s1) (sTy s1)) mol - touching A (ww (sPos s) (sTy s)) mol = dE) as ->.
    { unfold s1 at 1. cbn [sPos]. rewrite touching_delta; [|done|done|].
      - unfold dE. f_equal. unfold pair_energy. apply sum_ext. intros i _. apply sum_ext. intros j _. by rewrite !Hty1.
      - intros b Hb. rewrite Hty1. unfold ty'. by rewrite decide_False. }
    destruct (metropolis (boltzmann beta dE * wt new / wt st) r) eqn:Em.
    - exists s1, new, true. done.
    - eexists _, st, false. split; [done|]. split; [done|]. split; [|done]. split; [done|]. split; [|done]. intros b. cbn [sTy].
      rewrite retype_const by done. rewrite Hty1. unfold ty'. case_decide; [by rewrite Hst|done].
  Qed.
End Sys.
