(** Initialisation of groups and masks. *)
From Verif Require Import Base SpeciesModel SpeciesSpec SpeciesProofs SimModel SimSpec SimProofs.

Lemma off_inj per F p p' x x' a a' :
  F !! p = Some x -> F !! p' = Some x' -> a < Z.to_nat (per (fsp x)) -> a' < Z.to_nat (per (fsp x')) ->
  off per F p + a = off per F p' + a' -> p = p' /\ a = a'.
Proof.
  intros Hx Hx' Ha Ha' He.
  destruct (decide (p < p')) as [H|H]; [pose proof (off_lt per F p x p' Hx H); lia|].
  destruct (decide (p' < p)) as [H'|H']; [pose proof (off_lt per F p' x' p Hx' H'); lia|].
  assert (p = p') as -> by lia. split; [done|lia].
Qed.

(** Partners of atom [a] in a list of bonds. *)
Definition partner (a : Z) (g : sgroup) : option Z :=
  match sgAtoms g with
  | [x; y] => if decide (x = a) then Some y else if decide (y = a) then Some x else None
  | _ => None
  end.
Definition partners (gs : list sgroup) (a : Z) : list Z := omap (partner a) gs.
Lemma partners_app g1 g2 a : partners (g1 ++ g2) a = partners g1 a ++ partners g2 a.
Proof. apply omap_app. Qed.

Section Groups.
Context (sps : list species).
Let F := flat 0 sps.
Context (Hin : input_ok sps).

Lemma F_in x : x ∈ F -> fsp x ∈ sps.
Proof.
  intros (p & Hp)%elem_of_list_lookup. apply flat_inv in Hp as (pre & post & -> & _).
  apply elem_of_app. right. left.
Qed.
Lemma F_ok x : x ∈ F -> (0 < spNAtom (fsp x))%Z /\ species_ok (fsp x) /\ simple_bonds (spBond (fsp x)).
Proof.
  intros Hx%F_in. apply elem_of_list_lookup in Hx as [i Hi]. destruct Hin as [_ H].
  destruct (H i _ Hi) as (_ & _ & ? & ? & ?). done.
Qed.
Lemma F_types x : x ∈ F -> length (spTypes (fsp x)) = Z.to_nat (spNAtom (fsp x)).
Proof. intros Hx. destruct (F_ok x Hx) as (_ & [H _] & _). lia. Qed.

Lemma mask_pair_Ok M atoms n xx x y :
  atoms_are sps M (length F) atoms -> F !! n = Some xx ->
  x < Z.to_nat (spNAtom (fsp xx)) -> y < Z.to_nat (spNAtom (fsp xx)) -> x <> y ->
  length (M n x) < 4 -> length (M n y) < 4 -> off spNAtom F n + y ∉ M n x -> off spNAtom F n + x ∉ M n y ->
  exists atoms', mask_pair atoms (Z.of_nat (off spNAtom F n + x)) (Z.of_nat (off spNAtom F n + y)) = Ok atoms' /\
    atoms_are sps (fun p a => if decide (p = n /\ a = x) then M n x ++ [off spNAtom F n + y]
                              else if decide (p = n /\ a = y) then M n y ++ [off spNAtom F n + x] else M p a) (length F) atoms'.
Proof.
  intros [Hl Ha] Hn Hx Hy Hne Lx Ly Nx Ny. fold F in Ha.
  assert (Hty : length (spTypes (fsp xx)) = Z.to_nat (spNAtom (fsp xx))) by (apply F_types; by eapply elem_of_list_lookup_2).
  apply lookup_lt_Some in Hn as HnF.
  destruct (lookup_lt_is_Some_2 (spTypes (fsp xx)) x) as [tx Htx]; [lia|].
  destruct (lookup_lt_is_Some_2 (spTypes (fsp xx)) y) as [ty Hty']; [lia|].
  pose proof (Ha n xx x tx Hn HnF Htx) as Hax. pose proof (Ha n xx y ty Hn HnF Hty') as Hay.
  set (o := off spNAtom F n) in *.
  assert (Hg : forall {A} (l : list A) i, zget l (Z.of_nat i) = aget l i).
  { intros A l i. unfold zget. rewrite decide_True by lia. by rewrite Nat2Z.id. }
  assert (Hsz : forall {A} (l : list A) i v, zset l (Z.of_nat i) v = aset l i v).
  { intros A l i v. unfold zset. rewrite decide_True by lia. by rewrite Nat2Z.id. }
  unfold mask_pair. rewrite Hg.
  rewrite (aget_Ok' _ _ _ Hax). cbn [obind atMask atMol atType]. unfold mask_append at 1. rewrite Nat2Z.id.
  rewrite (bool_decide_eq_true_2 (length (M n x) < 4)) by done. cbn [check obind].
  rewrite (bool_decide_eq_false_2 (o + y ∈ M n x)) by done. cbn [negb check obind].
  rewrite Hsz, aset_Ok' by (by eapply lookup_lt_Some). cbn [obind].
  rewrite Hg, (aget_Ok' _ (o + y) (Atm n ty (M n y))).
  2:{ rewrite list_lookup_insert_ne by lia. done. }
  cbn [obind atMask atMol atType]. unfold mask_append. rewrite Nat2Z.id.
  rewrite (bool_decide_eq_true_2 (length (M n y) < 4)) by done. cbn [check obind].
  rewrite (bool_decide_eq_false_2 (o + x ∈ M n y)) by done. cbn [negb check obind].
  rewrite Hsz, aset_Ok' by (rewrite insert_length; by eapply lookup_lt_Some). eexists. split; [reflexivity|].
  split; [by rewrite !insert_length|]. fold F.
  intros p z a t Hp Hlt Ht. pose proof (Ha p z a t Hp Hlt Ht) as Hpa.
  assert (Haz : a < Z.to_nat (spNAtom (fsp z))).
  { apply lookup_lt_Some in Ht. rewrite F_types in Ht; [done|]. by eapply elem_of_list_lookup_2. }
  destruct (decide (p = n /\ a = y)) as [[-> ->]|Hd1].
  - rewrite decide_False by lia. fold o. rewrite list_lookup_insert by (rewrite insert_length; by eapply lookup_lt_Some).
    f_equal. assert (z = xx) as -> by congruence. congruence.
  - assert (o + y <> off spNAtom F p + a) as Hd2.
    { intros E. destruct (off_inj spNAtom F n p xx z y a) as [-> ->]; try done. naive_solver. }
    rewrite list_lookup_insert_ne by done.
    destruct (decide (p = n /\ a = x)) as [[-> ->]|Hd3].
    + fold o. rewrite list_lookup_insert by (by eapply lookup_lt_Some). assert (z = xx) as -> by congruence. congruence.
    + assert (o + x <> off spNAtom F p + a) as Hd4.
      { intros E. destruct (off_inj spNAtom F n p xx z x a) as [-> ->]; try done. naive_solver. }
      rewrite list_lookup_insert_ne by done. done.
Qed.

Lemma atoms_are_ext M M' n atoms :
  (forall p a x, F !! p = Some x -> a < Z.to_nat (spNAtom (fsp x)) -> M p a = M' p a) ->
  atoms_are sps M n atoms -> atoms_are sps M' n atoms.
Proof.
  intros He [Hl Ha]. split; [done|]. intros p x a t Hp Hlt Ht. rewrite <- (He p a x); [by eapply Ha|done|].
  apply lookup_lt_Some in Ht. rewrite F_types in Ht; [done|]. by eapply elem_of_list_lookup_2.
Qed.

(** Bonds of molecule p, and the masks made from the bonds of the molecules before n and the first B of molecule n. *)
Definition bonds_of (p : nat) : list sgroup := match F !! p with Some x => gtGroups (spBond (fsp x)) | None => [] end.
Definition stage (n B p : nat) : list sgroup :=
  if decide (p < n) then bonds_of p else if decide (p = n) then take B (bonds_of p) else [].
Definition msk (tabs : nat -> list sgroup) (p a : nat) : list nat :=
  map (fun z => off spNAtom F p + Z.to_nat z) (partners (tabs p) (Z.of_nat a)).

(** Bonds with their two atoms. *)
Lemma bond_atoms n xx b g : F !! n = Some xx -> gtGroups (spBond (fsp xx)) !! b = Some g ->
  exists x y, sgAtoms g = [Z.of_nat x; Z.of_nat y] /\ x <> y /\ x < Z.to_nat (spNAtom (fsp xx)) /\ y < Z.to_nat (spNAtom (fsp xx)).
Proof.
  intros Hn Hg. destruct (F_ok xx) as (_ & (_ & [_ _ Ht _] & _) & _); [by eapply elem_of_list_lookup_2|].
  destruct (Ht b g Hg) as (Hl & Hnd & Hr). destruct (sgAtoms g) as [|x [|y [|]]]; try done.
  pose proof (Hr x ltac:(left)). pose proof (Hr y ltac:(right; left)).
  exists (Z.to_nat x), (Z.to_nat y). rewrite !Z2Nat.id by lia. split; [done|].
  apply NoDup_cons in Hnd as [Hnd _]. split; [|lia]. intros E. apply Hnd.
  assert (x = y) as -> by lia. left.
Qed.

Lemma partner_Some a g z : partner a g = Some z -> (sgAtoms g = [a; z] \/ sgAtoms g = [z; a]).
Proof.
  unfold partner. destruct (sgAtoms g) as [|x [|y [|]]]; try done.
  destruct (decide (x = a)) as [->|]; [intros [= ->]; by left|].
  destruct (decide (y = a)) as [->|]; [intros [= ->]; by right|done].
Qed.
Lemma elem_partners gs a z : z ∈ partners gs a <-> exists g, g ∈ gs /\ partner a g = Some z.
Proof. unfold partners. rewrite elem_of_list_omap. done. Qed.

(** The partners of an atom in distinct bonds are distinct. *)
Lemma partners_NoDup n xx a : F !! n = Some xx -> NoDup (partners (gtGroups (spBond (fsp xx))) a).
Proof.
  intros Hn. destruct (F_ok xx) as (_ & _ & Hs & _); [by eapply elem_of_list_lookup_2|].
  assert (Hb : forall b g, gtGroups (spBond (fsp xx)) !! b = Some g -> exists x y, sgAtoms g = [x; y] /\ x <> y).
  { intros b g Hg. destruct (bond_atoms n xx b g Hn Hg) as (x & y & E & Hne & _). exists (Z.of_nat x), (Z.of_nat y).
    split; [done|lia]. }
  revert Hs Hb. generalize (gtGroups (spBond (fsp xx))). intros gs. induction gs as [|g gs IH]; intros Hs Hb; [constructor|].
  assert (NoDup (partners gs a)) as Hnd.
  { apply IH.
    - intros b1 b2 g1 g2 H1 H2 H. specialize (Hs (S b1) (S b2) g1 g2 H1 H2 H). by injection Hs.
    - intros b g' Hg'. by apply (Hb (S b)). }
  unfold partners. cbn [omap list_omap]. destruct (partner a g) as [z|] eqn:E; [|done].
  apply NoDup_cons. split; [|done]. intros (g' & Hg' & E')%elem_partners.
  apply elem_of_list_lookup in Hg' as [b Hg'].
  enough (0 = S b) by done. apply (Hs 0 (S b) g g'); [done|done|].
  apply partner_Some in E as [E|E]; apply partner_Some in E' as [E'|E']; rewrite E, E'; intros c;
    rewrite !elem_of_cons; naive_solver.
Qed.
(** An atom has at most 4 partners. *)
Lemma partners_length n xx a : F !! n = Some xx -> a < Z.to_nat (spNAtom (fsp xx)) ->
  length (partners (gtGroups (spBond (fsp xx))) (Z.of_nat a)) <= 4.
Proof.
  intros Hn Ha. destruct (F_ok xx) as (H0 & (_ & [Hgn Hids Hg Hl] & _) & _ & H4); [by eapply elem_of_list_lookup_2|].
  destruct (lookup_lt_is_Some_2 (gtIds (spBond (fsp xx))) a) as [l Hla]; [lia|].
  destruct (Hl a l Hla) as [Hnd Hiff]. specialize (H4 l ltac:(by eapply elem_of_list_lookup_2)).
  set (gs := gtGroups (spBond (fsp xx))) in *.
  assert (Hlen : forall gs' k l', (forall b g, gs' !! b = Some g -> is_Some (partner (Z.of_nat a) g) -> Z.of_nat (k + b) ∈ l') ->
     length (partners gs' (Z.of_nat a)) <= length l').
  { induction gs' as [|g gs' IH]; intros k l' Hsub; [cbn; lia|].
    unfold partners. cbn [omap list_omap]. destruct (partner (Z.of_nat a) g) as [z|] eqn:E.
    - assert (Z.of_nat (k + 0) ∈ l') as Hk by (apply (Hsub 0 g); [done|by eexists]). rewrite Nat.add_0_r in Hk.
      apply elem_of_list_split in Hk as (l1 & l2 & ->).
      cbn [length]. rewrite app_length. cbn [length]. rewrite Nat.add_succ_r, <- app_length. apply le_n_S.
      apply (IH (S k)). intros b g' Hg' Hp. specialize (Hsub (S b) g' Hg' Hp).
      replace (k + S b) with (S k + b) in Hsub by lia.
      apply elem_of_app in Hsub as [H|H]; [apply elem_of_app; by left|].
      apply elem_of_cons in H as [H|H]; [lia|]. apply elem_of_app; by right.
    - apply (IH (S k)). intros b g' Hg' Hp. specialize (Hsub (S b) g' Hg' Hp).
      replace (k + S b) with (S k + b) in Hsub by lia. done. }
  etransitivity; [|exact H4]. apply (Hlen gs 0). intros b g Hgb [z Hz]. cbn [plus]. apply Hiff.
  exists g. split; [lia|]. rewrite Nat2Z.id. split; [done|].
  apply partner_Some in Hz as [-> | ->]; [left|right; left].
Qed.

Lemma stage_S n B xx g : F !! n = Some xx -> gtGroups (spBond (fsp xx)) !! B = Some g ->
  forall p, stage n (S B) p = stage n B p ++ (if decide (p = n) then [g] else []).
Proof.
  intros Hn Hg p. unfold stage. destruct (decide (p < n)).
  - rewrite decide_False by lia. by rewrite app_nil_r.
  - destruct (decide (p = n)) as [->|]; [|done]. unfold bonds_of. rewrite Hn. by apply take_S_r.
Qed.

(** Appending one bond to the masks. *)
Lemma mask_bond_Ok n B xx g atoms :
  F !! n = Some xx -> gtGroups (spBond (fsp xx)) !! B = Some g ->
  atoms_are sps (msk (stage n B)) (length F) atoms ->
  exists a0 a1 atoms', map (fun a => (Z.of_nat (off spNAtom F n) + a)%Z) (sgAtoms g) = [a0; a1] /\
    mask_pair atoms a0 a1 = Ok atoms' /\ atoms_are sps (msk (stage n (S B))) (length F) atoms'.
Proof.
  intros Hn Hg Ha. destruct (bond_atoms n xx B g Hn Hg) as (x & y & E & Hne & Hx & Hy).
  rewrite E. cbn [map]. eexists _, _. rewrite <- !Nat2Z.inj_add.
  assert (Hst : stage n B n = take B (gtGroups (spBond (fsp xx)))).
  { unfold stage. rewrite decide_False by lia. rewrite decide_True by done. unfold bonds_of. by rewrite Hn. }
  assert (Hone : forall a z, partner (Z.of_nat a) g = Some z -> partners [g] (Z.of_nat a) = [z]).
  { intros a z Hz. unfold partners. cbn [omap list_omap]. by rewrite Hz. }
  assert (Hpre : forall a z, partner (Z.of_nat a) g = Some z -> a < Z.to_nat (spNAtom (fsp xx)) ->
     length (msk (stage n B) n a) < 4 /\ z ∉ partners (stage n B n) (Z.of_nat a)).
  { intros a z Hz Hlt. pose proof (partners_length n xx a Hn Hlt) as HL. pose proof (partners_NoDup n xx (Z.of_nat a) Hn) as HN.
    rewrite <- (take_drop_middle _ _ _ Hg) in HL, HN. rewrite partners_app in HL, HN.
    change (g :: drop (S B) (gtGroups (spBond (fsp xx)))) with ([g] ++ drop (S B) (gtGroups (spBond (fsp xx)))) in HL, HN.
    rewrite partners_app in HL, HN. rewrite (Hone a z Hz) in HL, HN.
    unfold msk. rewrite map_length, Hst. rewrite !app_length in HL. cbn [length app] in HL, HN. split; [lia|].
    apply NoDup_app in HN as (_ & HN & _). intros Hzin. apply (HN z Hzin). left. }
  assert (Hpx : partner (Z.of_nat x) g = Some (Z.of_nat y)).
  { unfold partner. rewrite E. by rewrite decide_True. }
  assert (Hpy : partner (Z.of_nat y) g = Some (Z.of_nat x)).
  { unfold partner. rewrite E. rewrite decide_False by lia. by rewrite decide_True. }
  destruct (Hpre x _ Hpx Hx) as [Lx Nx]. destruct (Hpre y _ Hpy Hy) as [Ly Ny].
  assert (Hnin : forall a z, z ∉ partners (stage n B n) (Z.of_nat a) -> (exists w, z = Z.of_nat w) ->
     off spNAtom F n + Z.to_nat z ∉ msk (stage n B) n a).
  { intros a z Hz [w ->] (z' & Hz' & Hin')%elem_of_list_fmap. apply Hz.
    assert (exists v, z' = Z.of_nat v) as [v ->].
    { apply elem_partners in Hin' as (g' & Hg' & Hp'). rewrite Hst in Hg'.
      apply elem_of_take in Hg' as (b' & Hg' & _). destruct (bond_atoms n xx b' g' Hn Hg') as (x' & y' & E' & _).
      apply partner_Some in Hp' as [Hp'|Hp']; rewrite E' in Hp'; naive_solver. }
    assert (w = v) as -> by lia. done. }
  destruct (mask_pair_Ok (msk (stage n B)) atoms n xx x y) as (atoms' & H1 & H2); try done.
  { specialize (Hnin x _ Nx ltac:(by eexists)). by rewrite Nat2Z.id in Hnin. }
  { specialize (Hnin y _ Ny ltac:(by eexists)). by rewrite Nat2Z.id in Hnin. }
  exists atoms'. split; [done|]. split; [done|].
  eapply atoms_are_ext; [|exact H2]. intros p a z Hp Hlt. cbn beta.
  unfold msk. rewrite (stage_S n B xx g Hn Hg), partners_app, map_app.
  destruct (decide (p = n)) as [->|Hpn].
  -
    destruct (decide (a = x)) as [->|Hax].
    + rewrite decide_True by done. rewrite (Hone _ _ Hpx). cbn [map]. by rewrite Nat2Z.id.
    + rewrite (decide_False (P := n = n /\ a = x)) by naive_solver.
      destruct (decide (a = y)) as [->|Hay].
      * rewrite decide_True by done. rewrite (Hone _ _ Hpy). cbn [map]. by rewrite Nat2Z.id.
      * rewrite (decide_False (P := n = n /\ a = y)) by naive_solver.
        assert (partners [g] (Z.of_nat a) = []) as ->.
        { unfold partners. cbn [omap list_omap]. unfold partner. rewrite E. rewrite !decide_False by lia. done. }
        cbn. by rewrite app_nil_r.
  - rewrite !decide_False by naive_solver. cbn. by rewrite app_nil_r.
Qed.
End Groups.
