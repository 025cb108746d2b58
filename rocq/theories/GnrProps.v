(** Property C107: generated configurations. *)
From stdpp Require Import gmap.
From Verif Require Import Base Vec3 BoxSpec OrthoModel OrthoSpec OrthoProofs OrthoProps MonoModel MonoSpec MonoProofs MonoProps.
From Verif Require Import McCellModel DomainModel DomainProofs SpeciesModel SpeciesProofs SpeciesBuild.
From Verif Require Import CellListModel CellListSpec CellListProofs CellListProps PairListModel PairListSpec PairListProofs PairListProps.
From Verif Require Import EnergyModel EnergySpec EnergyProofs MoveModel MoveSpec MoveProofs EnergyProps MoveProps CfbProofs GnrModel GnrSpec GnrProofs.
From Coq Require Import Reals Lra.
Local Open Scope R_scope.

(** C107: setupCellList, if some diameter is positive, makes an empty cell list. *)
Theorem generator_setup :
  forall M cap B ds n l0 pos, (2 <= M)%nat -> a_boundary B -> 0 < max_diameter ds -> grid_of (bLens B) (max_diameter ds) n -> length (clTags l0) = cap ->
  (forall d, d ∈ ds -> d <= max_diameter ds) /\
  exists l, setup_cells M ds (bLens B) l0 = Ok l /\ holding M cap (bGen B) (bLens B) (max_diameter ds) n [] l pos.
Proof.
  intros M cap B ds n l0 pos HM HB Hc HG Hl. pose proof (boundary_facts B HB) as F. split; [by apply (proj2 (max_ge ds 0))|].
  destruct (gwf_setup M cap HM (bGen B) n (bLens B) _ l0 Hc (bf_pos B F) Hl (grid_unique _ _ n (bf_pos B F) Hc HG)) as (l & E & _).
  exists l. split; [done|]. exists l0, l, []. split_and!; [done|done|done|done|]. intros a. rewrite decide_False by apply not_elem_of_nil. done.
Qed.

(** C107 is false if all diameters are zero: setupCellList throws. *)
Theorem generator_zero_refuted : forall M ds lens l, (forall d, d ∈ ds -> d = 0) -> setup_cells M ds lens l = Throw.
Proof.
  intros M ds lens l H. unfold setup_cells, cl_setup. replace (max_diameter ds) with 0; [destruct (Rle_dec 0 0); [done|lra]|].
  unfold max_diameter. induction ds as [|d ds IH]; [done|]. cbn [fold_left]. rewrite (H d) by left. destruct (Rlt_dec 0 0); [lra|]. apply IH. intros x Hx. apply H. by right.
Qed.

(** C107: attemptPlaceMolecule.  If it returns true, all atoms of the molecule are in the cell list, no two atoms there overlap, the first atom is at a
    position that was drawn and the others are bonded; if it returns false, the cell list is as before.  It does not return only if no position drawn for the
    first atom fits. *)
Theorem place_molecule_correct :
  forall M cap B ds n atoms all mol x s, (2 <= M)%nat -> a_boundary B -> (forall d, d ∈ ds -> 0 <= d) -> 0 < max_diameter ds -> grid_of (bLens B) (max_diameter ds) n ->
  (forall a, a ∈ all -> (a < cap)%nat /\ (0 <= sTy s a < Z.of_nat (length ds))%Z) -> NoDup (atoms ++ mol) -> atoms ⊆ all -> mol ⊆ all -> mol <> [] ->
  (forall S pos, S ⊆ all -> apart (bDist B) ds S pos (sTy s) -> ~ crowded (bGen B) n (M - 1) S pos) ->
  draws_near (bGen B) (near_cell_of (bBrav B)) x ->
  synced M cap (bGen B) (bLens B) (max_diameter ds) n atoms s -> apart (bDist B) ds atoms (sPos s) (sTy s) ->
  exists r, place_mol M (bGen B) (bDist B) (bWrap B) ds x s mol = Ok r /\
    match r with
    | None => exists a, mol !! 0%nat = Some a /\ forall q, q ∈ x.1 -> ~ apart (bDist B) ds (atoms ++ [a]) (move (sPos s) a (bWrap B q)) (sTy s)
    | Some (s', ok) =>
        let now := if ok : bool then atoms ++ mol else atoms in
        synced M cap (bGen B) (bLens B) (max_diameter ds) n now s' /\ apart (bDist B) ds now (sPos s') (sTy s') /\ sTy s' = sTy s /\
        (forall b, b ∉ mol -> sPos s' b = sPos s b) /\
        (ok = true -> bonded_by (bWrap B) (steps_of x.2) (sPos s') mol /\ starts_at (bWrap B) (fun q => q ∈ x.1) (sPos s') mol)
    end.
Proof.
  intros M cap B ds n atoms all mol x s HM HB Hds Hc HG Hall Hnd HA Hsub Hne Huc Hx Hs Hap. pose proof (boundary_facts B HB) as F.
  destruct (place_mol_ok M cap HM (bGen B) (bDist B) (bWrap B) (bLens B) n ds (near_cell_of (bBrav B)) (bf_pos B F) Hc HG Hds (boundary_adj B _ n HB Hc HG) (bf_sym B F)
    (bf_wrap B F) all (sTy s) Hall Huc atoms x s mol) as (r & E & H); [done..|]. exists r. split; [exact E|]. destruct r as [[s' ok]|]; [|done]. destruct H as [Hp H].
  destruct ok; [destruct H as ((_ & H1 & H2 & H3) & H4 & H5)|destruct H as (_ & H1 & H2 & H3)]; rewrite H3; split_and!; done.
Qed.

(** C107: generate.  If it returns, the molecules given to the system are the first [k] ones, all of them if it returns true, fewer otherwise; no two atoms
    overlap, the cell list holds exactly the atoms of the system, and all molecules are bonded.  There is no exception and no undefined behaviour. *)
Theorem generate_correct :
  forall M cap B ds n atoms all mols tries s, (2 <= M)%nat -> a_boundary B -> (forall d, d ∈ ds -> 0 <= d) -> 0 < max_diameter ds -> grid_of (bLens B) (max_diameter ds) n ->
  (forall a, a ∈ all -> (a < cap)%nat /\ (0 <= sTy s a < Z.of_nat (length ds))%Z) -> NoDup (atoms ++ concat mols) -> atoms ⊆ all ->
  (forall m, m ∈ mols -> m <> [] /\ m ⊆ all) ->
  (forall S pos, S ⊆ all -> apart (bDist B) ds S pos (sTy s) -> ~ crowded (bGen B) n (M - 1) S pos) ->
  (forall i x, x ∈ tries i -> draws_near (bGen B) (near_cell_of (bBrav B)) x) ->
  synced M cap (bGen B) (bLens B) (max_diameter ds) n atoms s -> apart (bDist B) ds atoms (sPos s) (sTy s) ->
  exists r, generate M (bGen B) (bDist B) (bWrap B) ds mols tries 0 s [] = Ok r /\
    match r with
    | None => True
    | Some (s', given, ok) =>
        exists k, given = take k mols /\ (k <= length mols)%nat /\ (ok = true <-> k = length mols) /\
        synced M cap (bGen B) (bLens B) (max_diameter ds) n (atoms ++ concat given) s' /\ apart (bDist B) ds (atoms ++ concat given) (sPos s') (sTy s') /\
        sTy s' = sTy s /\ (forall a, a ∈ atoms -> sPos s' a = sPos s a) /\
        (forall m, m ∈ given -> bonded_by (bWrap B) (drawn tries) (sPos s') m /\ starts_at (bWrap B) (fun q => exists i x, x ∈ tries i /\ q ∈ x.1) (sPos s') m)
    end.
Proof.
  intros M cap B ds n atoms all mols tries s HM HB Hds Hc HG Hall Hnd HA Hm Huc Hx Hs Hap. pose proof (boundary_facts B HB) as F.
  destruct (generate_ok M cap HM (bGen B) (bDist B) (bWrap B) (bLens B) n ds (near_cell_of (bBrav B)) (bf_pos B F) Hc HG Hds (boundary_adj B _ n HB Hc HG) (bf_sym B F)
    (bf_wrap B F) all (sTy s) Hall Huc atoms tries Hx mols 0 s []) as (r & E & H).
  - cbn [concat]. rewrite app_nil_r. done.
  - done.
  - cbn [concat]. by rewrite app_nil_r.
  - exists r. split; [exact E|]. destruct r as [[[s' given] ok]|]; [|done]. destruct H as (k & -> & Hk & Hok & (_ & H1 & H2 & H3) & H4 & H5). cbn [app] in *.
    exists k. rewrite H3. split_and!; [done..| |done]. intros a Ha. apply NoDup_app in Hnd as (_ & Hdis & _). apply H4; intros H; apply (Hdis a Ha);
      rewrite <- (take_drop k mols), concat_app; apply elem_of_app; [by left|by right].
Qed.

(** C107 is false: the loop for the first atom has no bound.  LinearGenerator sets maxAttempt to 500 and PointGenerator to 1, but neither counts.  If no
    position is free, no number of draws ends it, so that generate does not return. *)
Theorem first_atom_refuted :
  forall M cap B ds n atoms all a rest mols x tries s, (2 <= M)%nat -> a_boundary B -> (forall d, d ∈ ds -> 0 <= d) -> 0 < max_diameter ds -> grid_of (bLens B) (max_diameter ds) n ->
  (forall a, a ∈ all -> (a < cap)%nat /\ (0 <= sTy s a < Z.of_nat (length ds))%Z) -> NoDup (atoms ++ a :: rest) -> atoms ⊆ all -> a :: rest ⊆ all ->
  (forall S pos, S ⊆ all -> apart (bDist B) ds S pos (sTy s) -> ~ crowded (bGen B) n (M - 1) S pos) ->
  draws_near (bGen B) (near_cell_of (bBrav B)) x ->
  synced M cap (bGen B) (bLens B) (max_diameter ds) n atoms s -> apart (bDist B) ds atoms (sPos s) (sTy s) ->
  (forall q, primary (bGen B q) -> ~ apart (bDist B) ds (atoms ++ [a]) (move (sPos s) a q) (sTy s)) ->
  place_mol M (bGen B) (bDist B) (bWrap B) ds x s (a :: rest) = Ok None /\
  generate M (bGen B) (bDist B) (bWrap B) ds ((a :: rest) :: mols) (fun _ => x :: tries) 0 s [] = Ok None.
Proof.
  intros M cap B ds n atoms all a rest mols x tries s HM HB Hds Hc HG Hall Hnd HA Hsub Huc Hx Hs Hap Hfull. pose proof (boundary_facts B HB) as F.
  assert (place_mol M (bGen B) (bDist B) (bWrap B) ds x s (a :: rest) = Ok None) as E.
  { cbn [place_mol].
    destruct (place_first_ok M cap HM (bGen B) (bDist B) (bWrap B) (bLens B) n ds (near_cell_of (bBrav B)) (bf_pos B F) Hc HG Hds (boundary_adj B _ n HB Hc HG) (bf_sym B F)
      (bf_wrap B F) all (sTy s) Hall Huc atoms a x.1 s) as (r & -> & H).
    - done.
    - apply Hsub. left.
    - apply NoDup_app in Hnd as (_ & Hdis & _). intros H. apply (Hdis a H). left.
    - apply Hx.
    - cbn [obind]. destruct r as [s'|]; [|done]. exfalso. destruct H as ((_ & _ & H & _) & q & Hq & Hp). apply (Hfull (bWrap B q)); [apply (bf_wrap B F); by apply Hx|].
      intros i j Hi Hj Hne. rewrite <- !Hp. by apply H. }
  split; [exact E|]. cbn [generate take place_tries]. rewrite E. done.
Qed.

(** C107 is false for chains with bonds of different types: bondType is always 0, so that the configuration does not depend on the lengths drawn for other
    bond types. *)
Theorem generate_bond_type_refuted :
  forall M toGen dist2 wrap ds mols (tries tries' : nat -> list mol_draws) s,
  (forall i, Forall2 (fun x y => x.1 = y.1 /\ forall j, Forall2 (fun b c => b.1 = c.1 /\ b.2 0%Z = c.2 0%Z) (x.2 j) (y.2 j)) (tries i) (tries' i)) ->
  generate M toGen dist2 wrap ds mols tries 0 s [] = generate M toGen dist2 wrap ds mols tries' 0 s [].
Proof.
  intros M toGen dist2 wrap ds mols tries tries' s Hrel.
  assert (forall vs vs' s p a, Forall2 (fun b c : bond_draw => b.1 = c.1 /\ b.2 0%Z = c.2 0%Z) vs vs' -> place_next M toGen dist2 wrap ds vs s p a = place_next M toGen dist2 wrap ds vs' s p a) as H1.
  { intros vs vs' s0 p a H. revert s0. induction H as [|[u L] [u' L'] vs vs' [E1 E2] _ IH]; intros s0; [done|]. cbn in E1, E2. subst u'. cbn [place_next]. rewrite E2.
    destruct (place_atom _ _ _ _ _ _ _) as [[s1 ok]| |]; [|done..]. cbn [obind]. destruct ok; [done|apply IH]. }
  assert (forall next next', (forall j, Forall2 (fun b c : bond_draw => b.1 = c.1 /\ b.2 0%Z = c.2 0%Z) (next j) (next' j)) ->
    forall rest dn p i s, grow M toGen dist2 wrap ds next dn p rest i s = grow M toGen dist2 wrap ds next' dn p rest i s) as H2.
  { intros next next' H. induction rest as [|a rest IH]; intros dn p i s0; [done|]. cbn [grow]. rewrite (H1 _ (take 100 (next' i))) by (apply Forall2_take, H).
    destruct (place_next _ _ _ _ _ _ _ _ _) as [[s1 ok]| |]; [|done..]. cbn [obind]. destruct ok; [apply IH|done]. }
  assert (forall xs ys, Forall2 (fun x y : mol_draws => x.1 = y.1 /\ forall j, Forall2 (fun b c => b.1 = c.1 /\ b.2 0%Z = c.2 0%Z) (x.2 j) (y.2 j)) xs ys ->
    forall s mol, place_tries M toGen dist2 wrap ds xs s mol = place_tries M toGen dist2 wrap ds ys s mol) as H3.
  { intros xs ys H. induction H as [|x y xs ys [E1 E2] _ IH]; intros s0 mol; [done|]. cbn [place_tries].
    assert (place_mol M toGen dist2 wrap ds x s0 mol = place_mol M toGen dist2 wrap ds y s0 mol) as ->.
    { destruct mol as [|a rest]; [done|]. cbn [place_mol]. rewrite E1. destruct (place_first _ _ _ _ _ _ _ _) as [[s1|]| |]; [|done..]. cbn [obind]. by rewrite (H2 _ y.2). }
    destruct (place_mol _ _ _ _ _ _ _ _) as [[[s1 ok]|]| |]; [|done..]. cbn [obind]. destruct ok; [done|apply IH]. }
  assert (forall mols i s given, generate M toGen dist2 wrap ds mols tries i s given = generate M toGen dist2 wrap ds mols tries' i s given) as H4; [|apply H4].
  clear s mols. induction mols as [|mol mols IH]; intros i s given; [done|]. cbn [generate]. rewrite (H3 _ (take 200 (tries' i))) by (apply Forall2_take, Hrel).
  destruct (place_tries _ _ _ _ _ _ _ _) as [[[s1 ok]|]| |]; [|done..]. cbn [obind]. destruct ok; [apply IH|done].
Qed.

(** ** Examples *)
Definition gx_all : list nat := [0; 1]%nat.
Definition gx_start (l : clist) : mcs := MC (fun _ => V3 0 0 0) (fun _ => 0%Z) l.
Lemma gx_boundary : a_boundary (ortho_bd ex_box).
Proof. left. exists ex_box. split; [apply ex_a_box|done]. Qed.
Lemma gx_max d : 0 < d -> max_diameter [d] = d.
Proof. intros H. unfold max_diameter. cbn. destruct (Rlt_dec 0 d); [done|lra]. Qed.
Lemma gx_nonneg d : 0 < d -> forall x, x ∈ [d] -> 0 <= x.
Proof. intros H x ->%elem_of_list_singleton. lra. Qed.
Lemma gx_types : forall a, a ∈ gx_all -> (a < 4)%nat /\ (0 <= 0 < Z.of_nat (length [0]))%Z.
Proof. intros a Ha. unfold gx_all in Ha. rewrite !elem_of_cons, elem_of_nil in Ha. cbn. lia. Qed.
Lemma gx_few ds n : forall S pos, S ⊆ gx_all -> apart (distanceSq ex_box) ds S pos (fun _ => 0%Z) -> ~ crowded (cartToGen ex_box) n (61 - 1) S pos.
Proof.
  intros S pos HS _ (c & l & Hnd & Hl & _ & Hlen). assert (length l <= length gx_all)%nat; [|cbn in *; lia].
  apply submseteq_length, NoDup_submseteq; [done|]. intros a Ha. by apply HS, Hl.
Qed.
Lemma gx_draws qs : (forall q, q ∈ qs -> forall i, (i < 3)%nat -> 0 <= vget q i < 10) -> draws_near (cartToGen ex_box) (near_cell_of (oBrav ex_box)) (qs, fun _ => []).
Proof.
  intros H. split.
  - intros q Hq. apply box_near. intros i Hi. pose proof (H q Hq i Hi). lra.
  - intros v r (i & u & L & Hin & _). cbn in Hin. by apply elem_of_nil in Hin.
Qed.
Lemma gx_point M toGen dist2 wrap ds x s a r ok : place_mol M toGen dist2 wrap ds x s [a] = Ok (Some (r, ok)) -> ok = true.
Proof. cbn [place_mol grow]. destruct (place_first _ _ _ _ _ _ _ _) as [[s1|]| |]; cbn [obind]; congruence. Qed.
(** The first atom, at (1, 1, 1). *)
Lemma gx_one d n : 0 < d -> grid_of (oLen ex_box) d n ->
  exists s, synced 61 4 (cartToGen ex_box) (oLen ex_box) (max_diameter [d]) n [0%nat] s /\ sTy s = (fun _ => 0%Z) /\ sPos s 0%nat = V3 1 1 1.
Proof.
  intros Hd HG. destruct (generator_setup 61 4 (ortho_bd ex_box) [d] n (cl_new 4) (fun _ => V3 0 0 0)) as (_ & l & _ & Hl); [lia|apply gx_boundary|rewrite gx_max by done; done|rewrite gx_max by done; done|done|].
  destruct (place_molecule_correct 61 4 (ortho_bd ex_box) [d] n [] gx_all [0%nat] ([V3 1 1 1], fun _ => []) (gx_start l)) as (r & E & H).
  - lia.
  - apply gx_boundary.
  - by apply gx_nonneg.
  - by rewrite gx_max.
  - by rewrite gx_max.
  - apply gx_types.
  - apply NoDup_singleton.
  - intros a Ha. by apply elem_of_nil in Ha.
  - intros a ->%elem_of_list_singleton. left.
  - done.
  - apply gx_few.
  - apply gx_draws. intros q ->%elem_of_list_singleton [|[|[|]]] Hi; cbn; lra || lia.
  - done.
  - intros a b Ha. by apply elem_of_nil in Ha.
  - destruct r as [[s ok]|].
    + apply gx_point in E as ->. destruct H as (H1 & _ & H3 & _ & H5).
      exists s. split; [done|]. split; [done|]. destruct (H5 eq_refl) as [_ H6]. destruct (H6 0%nat eq_refl) as (q & Hq & E). apply elem_of_list_singleton in Hq as ->.
      rewrite E. apply rx_shift. lra.
    + exfalso. destruct H as (a & _ & H). apply (H (V3 1 1 1)); [left|]. intros x y ->%elem_of_list_singleton ->%elem_of_list_singleton Hne. done.
Qed.
Lemma gx_inside q : primary (cartToGen ex_box q) -> forall i, (i < 3)%nat -> 0 <= vget q i < 10.
Proof.
  intros Hq i Hi. destruct (ortho_transforms_inverse ex_box ex_a_box) as (_ & _ & _ & _ & Hbox). unfold primary in Hq. rewrite <- Hbox in Hq.
  destruct ex_wf as [lat W]. specialize (Hq i Hi). rewrite (w_len _ _ _ W) in Hq. destruct i as [|[|[|]]]; cbn in *; lra || lia.
Qed.
Lemma gx_axis x : 0 <= x < 10 -> (sep_axis (10/2) 10 1 x).1 * (sep_axis (10/2) 10 1 x).1 <= 25.
Proof.
  intros Hx. destruct (sep_axis (10/2) 10 1 x) as [d m] eqn:E. destruct (sep_axis_spec 10 1 x d m) as (_ & H & _); [lra|apply Rabs_le; lra|done|].
  cbn [fst]. pose proof (Rle_abs d). pose proof (Rle_abs (- d)) as H1. rewrite Rabs_Ropp in H1. nra.
Qed.
(** In a box of edge 10 no two atoms of diameter 9 fit. *)
Lemma gx_near9 q : primary (cartToGen ex_box q) -> distanceSq ex_box (V3 1 1 1) q < 81.
Proof.
  intros Hq. pose proof (gx_inside q Hq) as H. destruct q as [x y z]. rewrite (ex_dist _ _ _ _ _ _ _ _ eq_refl eq_refl).
  pose proof (gx_axis x (H 0%nat ltac:(lia))). pose proof (gx_axis y (H 1%nat ltac:(lia))). pose proof (gx_axis z (H 2%nat ltac:(lia))). lra.
Qed.
Lemma gx_grid9 : grid_of (oLen ex_box) 9 (V3 1 1 1)%Z.
Proof.
  destruct ex_wf as [lat W]. rewrite (w_len _ _ _ W). intros [|[|[|]]] Hj; try lia; cbn [vget vx vy vz]; (split; [lia|]; split; [rewrite plus_IZR; lra|lra]).
Qed.
Example first_atom_meets :
  exists s, synced 61 4 (cartToGen ex_box) (oLen ex_box) 9 (V3 1 1 1)%Z [0%nat] s /\
  forall qs, (forall q, q ∈ qs -> forall i, (i < 3)%nat -> 0 <= vget q i < 10) ->
  place_mol 61 (cartToGen ex_box) (distanceSq ex_box) (shift1 ex_box) [9] (qs, fun _ => []) s [1%nat] = Ok None.
Proof.
  destruct (gx_one 9 _ ltac:(lra) gx_grid9) as (s & Hs & Ht & Hp). pose proof (gx_max 9 ltac:(lra)) as Em. exists s. split; [by rewrite <- Em|]. intros qs Hqs.
  apply (first_atom_refuted 61 4 (ortho_bd ex_box) [9] (V3 1 1 1)%Z [0%nat] gx_all 1%nat [] [] (qs, fun _ => []) [] s).
  - lia.
  - apply gx_boundary.
  - apply gx_nonneg. lra.
  - rewrite Em. lra.
  - rewrite Em. apply gx_grid9.
  - rewrite Ht. apply gx_types.
  - apply rx_nodup.
  - intros a ->%elem_of_list_singleton. left.
  - intros a ->%elem_of_list_singleton. right. left.
  - rewrite Ht. apply gx_few.
  - by apply gx_draws.
  - done.
  - intros a b ->%elem_of_list_singleton ->%elem_of_list_singleton H. done.
  - intros q Hq H. specialize (H 0%nat 1%nat ltac:(left) ltac:(right; left) ltac:(done)). rewrite Ht in H.
    change (Rsqr ((9 + 9) / 2) <= distanceSq ex_box (sPos s 0%nat) q) in H. rewrite Hp in H. unfold Rsqr in H. pose proof (gx_near9 q Hq). lra.
Qed.

(** Atom 1, after a draw at distance 1 of atom 0 that does not fit: at (5, 1, 1). *)
Definition gx_draw : mol_draws := ([V3 2 1 1; V3 5 1 1], fun _ => []).
Example generate_meets :
  exists s s', synced 61 4 (cartToGen ex_box) (oLen ex_box) 3 (V3 3 3 3)%Z [0%nat] s /\
  place_mol 61 (cartToGen ex_box) (distanceSq ex_box) (shift1 ex_box) [3] gx_draw s [1%nat] = Ok (Some (s', true)) /\
  generate 61 (cartToGen ex_box) (distanceSq ex_box) (shift1 ex_box) [3] [[1%nat]] (fun _ => [gx_draw]) 0 s [] = Ok (Some (s', [[1%nat]], true)) /\
  apart (distanceSq ex_box) [3] [0; 1]%nat (sPos s') (sTy s') /\ sPos s' 0%nat = V3 1 1 1 /\ sPos s' 1%nat = V3 5 1 1.
Proof.
  destruct (gx_one 3 _ ltac:(lra) rx_grid) as (s & Hs & Ht & Hp). pose proof (gx_max 3 ltac:(lra)) as Em. exists s.
  destruct (place_molecule_correct 61 4 (ortho_bd ex_box) [3] (V3 3 3 3)%Z [0%nat] gx_all [1%nat] gx_draw s) as (r & E & H).
  - lia.
  - apply gx_boundary.
  - apply gx_nonneg. lra.
  - rewrite Em. lra.
  - rewrite Em. apply rx_grid.
  - rewrite Ht. apply gx_types.
  - apply rx_nodup.
  - intros a ->%elem_of_list_singleton. left.
  - intros a ->%elem_of_list_singleton. right. left.
  - done.
  - rewrite Ht. apply gx_few.
  - apply gx_draws. intros q Hq. apply elem_of_cons in Hq as [->| ->%elem_of_list_singleton]; intros [|[|[|]]] Hi; cbn; lra || lia.
  - done.
  - intros a b ->%elem_of_list_singleton ->%elem_of_list_singleton H. done.
  - cbn [ortho_bd bGen bDist bWrap bLens] in E. destruct r as [[s' ok]|].
    + pose proof (gx_point _ _ _ _ _ _ _ _ _ _ E) as ->. destruct H as (H1 & H2 & H3 & H4 & H5). exists s'. split; [by rewrite <- Em|]. split; [exact E|].
      split; [cbn [generate take place_tries]; rewrite E; done|]. split; [exact H2|].
      assert (sPos s' 0%nat = V3 1 1 1) as Hp0. { rewrite H4; [done|]. intros Hi%elem_of_list_singleton. done. }
      split; [done|]. destruct (H5 eq_refl) as [_ H6]. destruct (H6 1%nat eq_refl) as (q & Hq & Eq). cbn in Hq, Eq. apply elem_of_cons in Hq as [->| ->%elem_of_list_singleton].
      * exfalso. rewrite rx_shift in Eq by lra. specialize (H2 0%nat 1%nat ltac:(left) ltac:(right; left) ltac:(done)). rewrite H3, Ht in H2.
        change (Rsqr ((3 + 3) / 2) <= distanceSq ex_box (sPos s' 0%nat) (sPos s' 1%nat)) in H2. rewrite Hp0, Eq, rx_sq in H2 by (apply Rabs_le; lra). unfold Rsqr in H2. lra.
      * rewrite Eq. apply rx_shift. lra.
    + exfalso. destruct H as (a & Ha & H). cbn in Ha. injection Ha as <-. apply (H (V3 5 1 1)); [right; left|]. rewrite Ht. cbn [bWrap ortho_bd]. rewrite rx_shift by lra.
      intros a b Ha Hb Hne. cbn [app] in Ha, Hb. rewrite !elem_of_cons, elem_of_nil in Ha, Hb. destruct Ha as [->|[->|[]]], Hb as [->|[->|[]]]; try done.
      * change (Rsqr ((3 + 3) / 2) <= distanceSq ex_box (sPos s 0%nat) (V3 5 1 1)). rewrite Hp, rx_sq by (apply Rabs_le; lra). unfold Rsqr. lra.
      * change (Rsqr ((3 + 3) / 2) <= distanceSq ex_box (V3 5 1 1) (sPos s 0%nat)). rewrite Hp, rx_sq by (apply Rabs_le; lra). unfold Rsqr. lra.
Qed.
(** Draws with a bond of length 3. *)
Example draws_near_meets : draws_near (cartToGen ex_box) (near_cell_of (oBrav ex_box)) ([V3 1 1 1], fun _ => [(V3 1 0 0, fun _ => 3)]).
Proof.
  split.
  - intros q ->%elem_of_list_singleton. apply box_near. intros [|[|[|]]] Hi; cbn; lra || lia.
  - intros v r (i & u & L & Hin & ->) Hr. apply elem_of_list_singleton in Hin. injection Hin as -> ->. pose proof (gx_inside r Hr) as H. apply box_near. intros j Hj. specialize (H j Hj).
    destruct r as [x y z], j as [|[|[|]]]; cbn in *; lra || lia.
Qed.
Example generator_zero_meets : setup_cells 61 [0; 0] (V3 10 10 10) (cl_new 4) = Throw.
Proof. apply generator_zero_refuted. intros d Hd. rewrite !elem_of_cons, elem_of_nil in Hd. intuition. Qed.
(** Bonds of type 1 of length 3 or 5. *)
Example bond_type_meets s :
  let x (b : R) : mol_draws := ([V3 1 1 1], fun _ => [(V3 1 0 0, fun t => if decide (t = 1%Z) then b else 3)]) in
  generate 61 (cartToGen ex_box) (distanceSq ex_box) (shift1 ex_box) [3] [[0; 1]%nat] (fun _ => [x 3]) 0 s [] =
  generate 61 (cartToGen ex_box) (distanceSq ex_box) (shift1 ex_box) [3] [[0; 1]%nat] (fun _ => [x 5]) 0 s [].
Proof. apply generate_bond_type_refuted. intros i. constructor; [|constructor]. split; [done|]. intros j. constructor; [|constructor]. done. Qed.

Print Assumptions generator_setup.
Print Assumptions generator_zero_refuted.
Print Assumptions place_molecule_correct.
Print Assumptions generate_correct.
Print Assumptions first_atom_refuted.
Print Assumptions generate_bond_type_refuted.
