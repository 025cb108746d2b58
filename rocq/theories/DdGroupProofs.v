(** Groups on one processor: separations, energies, stresses and forces. *)
From Verif Require Import Base Containers Vec3 OrthoModel BoxSpec OrthoSpec OrthoProofs OrthoProps MonoModel MonoSpec MonoProofs MonoProps PlanModel DomainModel SpeciesModel SpeciesProofs ExchProofs EnergySpec EnergyProofs NbrModel ExchModel ExchSpec ExchUpdSpec GExchModel GExchSpec DdPairModel DdPairSpec DdPairProofs DdPairRuns DdPairTotal DdGroupModel DdGroupSpec.
From Coq Require Import Reals Lra.
Local Open Scope nat_scope.

(** ** Separations *)
Lemma int_mult_small (L x y : R) (n : Z) : (0 < L)%R -> x = (y + IZR n * L)%R -> (Rabs x < L / 2)%R -> (Rabs y < L / 2)%R -> x = y.
Proof.
  intros HL E Hx Hy. assert (n = 0%Z) as ->; [|rewrite E; lra]. apply Rabs_def2 in Hx, Hy. assert (H1 : (-1 < IZR n < 1)%R).
  { split; apply Rmult_lt_reg_r with L; lra. } destruct H1 as [H1 H2]. apply lt_IZR in H1, H2. lia.
Qed.
Lemma norm_comp v i b : i < 3 -> (0 <= b)%R -> (normSq v < b * b)%R -> (Rabs (vget v i) < b)%R.
Proof.
  intros Hi Hb H. assert (Hs : (vget v i * vget v i < b * b)%R).
  { unfold normSq, vdot in H. pose proof (Rle_0_sqr (vx v)). pose proof (Rle_0_sqr (vy v)). pose proof (Rle_0_sqr (vz v)). unfold Rsqr in *. destruct i as [|[|[|]]]; [| | |lia]; cbn [vget]; lra. }
  apply Rsqr_lt_abs_0 in Hs. by rewrite (Rabs_pos_eq b) in Hs.
Qed.
Section metric.
  Context (A : nat -> vec3 R) (toGen : vec3 R -> vec3 R) (dsq : vec3 R -> vec3 R -> R) (dsr : vec3 R -> vec3 R -> R * vec3 R) (ml : R) (HM : a_metric A toGen dsq dsr ml).
  Lemma metric_near pos i j v x y n0 n1 : x = lattice_move A (pos i) n0 -> y = lattice_move A (pos j) n1 -> nearest A ml pos i j v ->
    (forall c, c < 3 -> (Rabs (vget (toGen x) c - vget (toGen y) c) <= 3/2)%R) -> dsr x y = (normSq v, v) /\ dsq x y = normSq v.
  Proof.
    intros Ex Ey (n & Ev & Hn) HR. destruct HM as [b B|b B].
    - destruct (owf_a_box b B) as (l & lat & W). pose proof (w_pos _ _ _ W) as HP. pose proof (w_len _ _ _ W) as EL.
      assert (HR' : forall i, i < 3 -> (Rabs (vget x i - vget y i) <= 3/2 * vget (oLen b) i)%R).
      { intros c Hc. specialize (HR c Hc). pose proof (pos3_get l c HP) as Hp. rewrite EL.
        assert (EG : (vget (cartToGen b x) c - vget (cartToGen b y) c = (vget x c - vget y c) / vget l c)%R).
        { unfold cartToGen. rewrite (w_inv _ _ _ W). destruct c as [|[|[|]]]; [| | |lia]; cbn [vget vmap vx vy vz] in *; field; lra. }
        rewrite EG in HR. unfold Rdiv in HR. rewrite Rabs_mult, (Rabs_pos_eq (/ vget l c)) in HR by (left; by apply Rinv_0_lt_compat).
        apply Rmult_le_reg_r with (/ vget l c)%R; [by apply Rinv_0_lt_compat|]. rewrite Rmult_assoc, Rinv_r by lra. lra. }
      pose proof (ortho_distanceSq_min_image b x y B HR') as H. destruct (distanceSq_shift b x y) as [dd t]. destruct (distanceSq_dr b x y) as [d' dr] eqn:ED. destruct H as (E1 & E2 & E3 & E4 & Hmin & _).
      assert (HV : exists k : vec3 Z, v = vadd (vsub x y) (lattice_vector (oBrav b) k)).
      { exists (V3 (vx n1 - vx n0 - vx n)%Z (vy n1 - vy n0 - vy n)%Z (vz n1 - vz n0 - vz n)%Z). rewrite Ev, Ex, Ey. unfold lattice_vector, combo, vadd, vsub, vscale, lattice_move. rewrite (w_brav _ _ _ W), EL.
        cbn [vmap vx vy vz vset vget diag]. rewrite !minus_IZR. unfold diag, OrthoModel.vzero. cbn [vmap vx vy vz vset vget]. f_equal; lra. }
      destruct HV as [k EV]. assert (Hd : (normSq dr <= normSq v)%R) by (rewrite <- E4, EV; apply Hmin).
      assert (Hdr : dr = v).
      { assert (HC : forall c, c < 3 -> vget dr c = vget v c).
        { intros c Hc. pose proof (pos3_get l c HP) as Hp. assert (Hml : (0 < oMinLen b <= vget l c)%R).
          { rewrite (w_minlen _ _ _ W). destruct HP as (P0 & P1 & P2). split; [repeat apply Rmin_pos; done|]. pose proof (Rmin_l (vx l) (Rmin (vy l) (vz l))). pose proof (Rmin_r (vx l) (Rmin (vy l) (vz l))). pose proof (Rmin_l (vy l) (vz l)). pose proof (Rmin_r (vy l) (vz l)).
            destruct c as [|[|[|]]]; [| | |lia]; cbn [vget]; lra. }
          apply (int_mult_small (vget l c) _ _ (vget t c - vget k c)); [done| | |].
          - rewrite E3, EV, minus_IZR. unfold lattice_vector, combo, vadd, vsub, vscale. rewrite (w_brav _ _ _ W). unfold diag, OrthoModel.vzero. destruct c as [|[|[|]]]; [| | |lia]; cbn [vmap vx vy vz vset vget]; lra.
          - apply Rlt_le_trans with (oMinLen b / 2)%R; [|lra]. apply norm_comp; [done|lra|lra].
          - apply Rlt_le_trans with (oMinLen b / 2)%R; [|lra]. apply norm_comp; [done|lra|lra]. }
        pose proof (HC 0 ltac:(lia)) as C0. pose proof (HC 1 ltac:(lia)) as C1. pose proof (HC 2 ltac:(lia)) as C2. destruct dr as [r0 r1 r2], v as [v0 v1 v2]. cbn [vget vx vy vz] in C0, C1, C2. by rewrite C0, C1, C2. }
      rewrite Hdr in E4 |- *. rewrite ?ED, E2, E4. split; [done|]. rewrite <- E4. symmetry. exact E1.
    - pose proof (mono_distanceSq_image_partial b x y B HR) as H. destruct (mono_distanceSq_shift b x y) as [dd t]. destruct (mono_distanceSq_dr b x y) as [d' dr] eqn:ED. destruct H as (E1 & E2 & E3 & E4 & _ & _ & HU).
      destruct (mwf_a_mbox b B) as (l & dl & W).
      assert (HV : v = vadd (vsub x y) (lattice_vector (mBrav b) (V3 (vx n1 - vx n0 - vx n)%Z (vy n1 - vy n0 - vy n)%Z (vz n1 - vz n0 - vz n)%Z))).
      { rewrite Ev, Ex, Ey. unfold lattice_vector, combo, vadd, vsub, vscale, lattice_move. rewrite (m_brav _ _ _ W), (m_l _ _ _ W), (m_d _ _ _ W). cbn [vmap vx vy vz vset vget]. rewrite !minus_IZR. f_equal; lra. }
      destruct (HU (V3 (vx n1 - vx n0 - vx n)%Z (vy n1 - vy n0 - vy n)%Z (vz n1 - vz n0 - vz n)%Z)) as [U1 U2]; [by rewrite <- HV|]. rewrite <- HV in U1, U2. rewrite ?ED, U2, E2, U1. split; [done|]. rewrite <- U1. symmetry. exact E1.
  Qed.
End metric.

(** ** Loops *)
Lemma foldM_sum {X} (F : R -> X -> outcome R) (f : X -> R) (l : list X) : (forall e x, x ∈ l -> F e x = Ok (e + f x)%R) -> forall e, foldM F e l = Ok (e + sum_over l f)%R.
Proof.
  induction l as [|x l IH]; intros H e; cbn [foldM].
  - rewrite sum_nil. f_equal. lra.
  - rewrite H by apply elem_of_list_here. cbn [obind]. rewrite IH by (intros; apply H; by apply elem_of_list_further). rewrite sum_cons. f_equal. lra.
Qed.
(** Forces added one after another. *)
Lemma adds_comp l : forall m, alike m (fold_left add_force l m) /\ forall h c, c < 3 ->
  vget (xForce (fold_left add_force l m h)) c = (vget (xForce (m h)) c + sum_over l (fun x => if decide (x.1 = h) then vget x.2 c else 0))%R.
Proof.
  induction l as [|[k f] l IH]; intros m; cbn [fold_left].
  - split; [apply alike_refl|]. intros h c Hc. rewrite sum_nil. lra.
  - destruct (IH (add_force m (k, f))) as [H1 H2]. split; [eapply alike_trans; [apply alike_add|done]|]. intros h c Hc. rewrite H2, add_comp, sum_cons by done. cbn [fst snd]. lra.
Qed.
Lemma foldM_adds (st : (nat -> xatom) -> ggroup -> outcome (nat -> xatom)) (inc : ggroup -> list (nat * vec3 R)) m0 (l : list ggroup) :
  (forall m g, g ∈ l -> alike m0 m -> st m g = Ok (fold_left add_force (inc g) m)) -> forall m, alike m0 m -> foldM st m l = Ok (fold_left add_force (flat_map inc l) m).
Proof.
  induction l as [|g l IH]; intros H m Hm; cbn [foldM flat_map]; [done|]. rewrite H by (apply elem_of_list_here || done). cbn [obind]. rewrite fold_left_app. apply IH; [intros; apply H; [by apply elem_of_list_further|done]|]. eapply alike_trans; [exact Hm|]. apply adds_comp.
Qed.
Lemma elem_kind k gs g : g ∈ kind_groups k gs <-> g ∈ gs /\ gKind g = k.
Proof. unfold kind_groups. rewrite !elem_of_list_In, filter_In, Nat.eqb_eq. done. Qed.
Lemma elem_bonds k G b : b ∈ kind_bonds k G <-> b ∈ G /\ bKind b = k.
Proof. unfold kind_bonds. rewrite !elem_of_list_In, filter_In, Nat.eqb_eq. done. Qed.

(** ** One processor *)
Section proc.
  Context (A : nat -> vec3 R) (toGen : vec3 R -> vec3 R) (dsq : vec3 R -> vec3 R -> R) (dsr : vec3 R -> vec3 R -> R * vec3 R) (ml : R) (HM : a_metric A toGen dsq dsr ml).
  Context (pos : Z -> vec3 R) (d : Z -> Z -> vec3 R) (G : list bond) (HS : separations A ml pos G d).
  Context (p : gproc) (q : xproc) (HG : groups_ok G p) (HA : points_all p).
  Context (EL : xpLocals q = xpLocals (gpX p)) (EG : xpGhosts q = xpGhosts (gpX p)).
  Context (HPos : forall h, h ∈ xpLocals q ++ xpGhosts q -> exists n, xPos (xpMem q h) = lattice_move A (pos (xId (xpMem (gpX p) h))) n).
  Context (HC : forall h h' i, h ∈ xpLocals q ++ xpGhosts q -> h' ∈ xpLocals q ++ xpGhosts q -> i < 3 -> (Rabs (vget (toGen (xPos (xpMem q h))) i - vget (toGen (xPos (xpMem q h'))) i) <= 3/2)%R).

  (** The atom is here. *)
  Definition home (id : Z) : bool := bool_decide (id ∈ map (fun h => xId (xpMem (gpX p) h)) (xpLocals (gpX p))).
  Definition ind (id : Z) : R := if home id then 1%R else 0%R.
  Definition cnt (b : bond) : R := sum_over (bAtoms b) ind.
  Lemma slot g k id : g ∈ gpGroups p -> gAtoms g !! k = Some id -> exists h, gptr g k = Ok h /\ h ∈ xpLocals q ++ xpGhosts q /\ xId (xpMem (gpX p) h) = id /\ isLocal q h = home id /\
    forall h', h' ∈ xpLocals q -> (h = h' <-> xId (xpMem (gpX p) h') = id).
  Proof.
    intros Hg Hk. destruct HG as (_ & PL & PG & ND). assert (K : kth p g k id) by done. destruct (HA g k id K) as [h Hh]. exists h. split; [unfold gptr; by rewrite Hh|].
    assert (HH : h ∈ xpLocals (gpX p) /\ xId (xpMem (gpX p) h) = id \/ h ∈ xpGhosts (gpX p) /\ xId (xpMem (gpX p) h) = id).
    { destruct (PG g k id K h Hh) as [H|H]; [left|by right]. split; [done|]. by apply (PL g k id K h H). }
    assert (HU : forall h', h' ∈ xpLocals q -> h = h' <-> xId (xpMem (gpX p) h') = id).
    { intros h' Hl. rewrite EL in Hl. rewrite <- (PL g k id K h' Hl). unfold points in *. rewrite Hh. split; [by intros ->|congruence]. }
    split; [rewrite EL, EG; apply elem_of_app; tauto|]. split; [tauto|]. split; [|done]. unfold isLocal, home. rewrite EG. destruct HH as [[H1 H2]|[H1 H2]].
    - rewrite bool_decide_false by (intros X; by apply (ND h X)). rewrite bool_decide_true; [done|]. apply elem_of_map. eauto.
    - rewrite bool_decide_true by done. cbn [negb]. symmetry. apply bool_decide_eq_false. intros X. apply elem_of_map in X as (h' & E & H'). rewrite <- EL in H'. pose proof (proj2 (HU h' H') (eq_sym E)) as <-. rewrite EL in H'. by apply (ND h H1).
  Qed.
  Lemma in_G g : g ∈ gpGroups p -> bond_of g ∈ G /\ exists id, id ∈ gAtoms g /\ home id = true.
  Proof.
    intros Hg. destruct HG as ([_ SL _] & _). destruct (proj1 (SL (bond_of g))) as [H1 (a & Ha & Hi)]; [apply elem_of_map; eauto|]. split; [done|]. exists (xId a). split; [done|]. unfold home. apply bool_decide_true.
    unfold locals in Ha. apply elem_of_map in Ha as (h & -> & Hh). apply elem_of_map. eauto.
  Qed.
  (** Separations of neighbours. *)
  Lemma near_slots g k i j : g ∈ gpGroups p -> gAtoms g !! k = Some i -> gAtoms g !! S k = Some j -> forall h h', h ∈ xpLocals q ++ xpGhosts q -> xId (xpMem (gpX p) h) = i ->
    h' ∈ xpLocals q ++ xpGhosts q -> xId (xpMem (gpX p) h') = j ->
    (dsr (xPos (xpMem q h)) (xPos (xpMem q h')) = (normSq (d i j), d i j) /\ dsq (xPos (xpMem q h)) (xPos (xpMem q h')) = normSq (d i j)) /\ dsr (xPos (xpMem q h')) (xPos (xpMem q h)) = (normSq (d j i), d j i).
  Proof.
    intros Hg Hi Hj h h' Hh E Hh' E'. destruct (in_G g Hg) as [HbG _]. destruct (HS (bond_of g) k i j HbG Hi Hj) as [N1 N2]. destruct (HPos h Hh) as [n En]. destruct (HPos h' Hh') as [n' En']. rewrite E in En. rewrite E' in En'. split.
    - apply (metric_near A toGen dsq dsr ml HM pos i j _ _ _ n n'); [done..|]. intros c Hc. by apply HC.
    - apply (metric_near A toGen dsq dsr ml HM pos j i _ _ _ n' n); [done..|]. intros c Hc. by apply HC.
  Qed.

  Ltac slots Hg E :=
    match type of E with gAtoms ?g = ?l =>
      let rec go n l := match l with
        | [] => idtac
        | ?x :: ?t => let K := fresh "K" in let h := fresh "h" in let P := fresh "P" in let I := fresh "I" in let X := fresh "X" in let L := fresh "L" in let U := fresh "U" in
                      assert (K : gAtoms g !! n = Some x) by (rewrite E; reflexivity); destruct (slot g n x Hg K) as (h & P & I & X & L & U); rewrite P; cbn [obind]; go (S n) t end in
      go 0 l end.

  Section energies.
    Context (bu bfo : R -> Z -> R) (ae : R -> Z -> R) (af : vec3 R -> vec3 R -> Z -> vec3 R * vec3 R).
    Context (de : vec3 R -> vec3 R -> vec3 R -> Z -> R) (df : vec3 R -> vec3 R -> vec3 R -> Z -> vec3 (vec3 R)).
    Lemma cnt_list g l : gAtoms g = l -> cnt (bond_of g) = sum_over l ind.
    Proof. by intros <-. Qed.
    Lemma bond_energy_val k : (forall g, g ∈ gpGroups p -> gKind g = k -> length (gAtoms g) = 2) ->
      bond_energy dsq bu k (gpGroups p) q = Ok (sum_over (kind_groups k (gpGroups p)) (fun g => cnt (bond_of g) * (1/2 * bond_u d bu (bond_of g))))%R.
    Proof.
      intros HL. unfold bond_energy. rewrite (foldM_sum _ (fun g => cnt (bond_of g) * (1/2 * bond_u d bu (bond_of g)))%R); [f_equal; lra|]. intros e g Hg. apply elem_kind in Hg as [Hg Ek]. specialize (HL g Hg Ek).
      destruct (gAtoms g) as [|i [|j [|]]] eqn:E; try discriminate. slots Hg E. destruct (near_slots g 0 i j Hg K K0 h h0 I X I0 X0) as [[D1 D2] D3]. rewrite D2, L, L0, (cnt_list g _ E), !sum_cons, sum_nil. unfold bond_u. cbn [bAtoms bond_of bType]. rewrite E.
      destruct (in_G g Hg) as (_ & id & Hid & Hh). rewrite E in Hid. unfold ind. f_equal. destruct (home i) eqn:H1, (home j) eqn:H2; cbn [andb]; try lra. exfalso. apply elem_of_cons in Hid as [->|Hid]; [congruence|]. apply elem_of_list_singleton in Hid as ->. congruence.
    Qed.
    Lemma bond_stress_val i' j' k : (forall g, g ∈ gpGroups p -> gKind g = k -> length (gAtoms g) = 2) ->
      bond_stress dsr bfo i' j' k (gpGroups p) q = Ok (sum_over (kind_groups k (gpGroups p)) (fun g => cnt (bond_of g) * (1/2 * bond_w d bfo i' j' (bond_of g))))%R.
    Proof.
      intros HL. unfold bond_stress. rewrite (foldM_sum _ (fun g => cnt (bond_of g) * (1/2 * bond_w d bfo i' j' (bond_of g)))%R); [f_equal; lra|]. intros e g Hg. apply elem_kind in Hg as [Hg Ek]. specialize (HL g Hg Ek).
      destruct (gAtoms g) as [|i [|j [|]]] eqn:E; try discriminate. slots Hg E. destruct (near_slots g 0 i j Hg K K0 h h0 I X I0 X0) as [[D1 D2] D3]. rewrite D1, L, L0, (cnt_list g _ E), !sum_cons, sum_nil. unfold bond_w. cbn [bAtoms bond_of bType fst snd]. rewrite E.
      assert (HV : forall w f v c, vget (vscale (w * f) v) c = (w * vget (vscale f v) c)%R) by (intros w f v c; destruct c as [|[|]]; cbn [vget vscale vx vy vz]; lra).
      destruct (in_G g Hg) as (_ & id & Hid & Hh). rewrite E in Hid. unfold ind. f_equal. destruct (home i) eqn:H1, (home j) eqn:H2; cbn [andb]; rewrite ?HV; try lra. exfalso. apply elem_of_cons in Hid as [->|Hid]; [congruence|]. apply elem_of_list_singleton in Hid as ->. congruence.
    Qed.
    Lemma localInt_ind h id : isLocal q h = home id -> localInt q h = ind id.
    Proof. intros E. unfold localInt, ind. by rewrite E. Qed.
    Lemma angle_energy_val k : (forall g, g ∈ gpGroups p -> gKind g = k -> length (gAtoms g) = 3) ->
      angle_energy dsr ae k (gpGroups p) q = Ok (sum_over (kind_groups k (gpGroups p)) (fun g => cnt (bond_of g) * (1/3 * angle_u d ae (bond_of g))))%R.
    Proof.
      intros HL. unfold angle_energy. rewrite (foldM_sum _ (fun g => cnt (bond_of g) * (1/3 * angle_u d ae (bond_of g)))%R); [f_equal; lra|]. intros e g Hg. apply elem_kind in Hg as [Hg Ek]. specialize (HL g Hg Ek).
      destruct (gAtoms g) as [|i [|j [|j2 [|]]]] eqn:E; try discriminate. slots Hg E. destruct (near_slots g 0 i j Hg K K0 h h0 I X I0 X0) as [_ D1]. destruct (near_slots g 1 j j2 Hg K0 K1 h0 h1 I0 X0 I1 X1) as [_ D2].
      rewrite D1, D2, (localInt_ind _ _ L), (localInt_ind _ _ L0), (localInt_ind _ _ L1), (cnt_list g _ E), !sum_cons, sum_nil. unfold angle_u. cbn [bAtoms bond_of bType fst snd]. rewrite E. f_equal. lra.
    Qed.
    Lemma angle_stress_val i' j' k : (forall g, g ∈ gpGroups p -> gKind g = k -> length (gAtoms g) = 3) ->
      angle_stress dsr af i' j' k (gpGroups p) q = Ok (sum_over (kind_groups k (gpGroups p)) (fun g => cnt (bond_of g) * (1/3 * angle_w d af i' j' (bond_of g))))%R.
    Proof.
      intros HL. unfold angle_stress. rewrite (foldM_sum _ (fun g => cnt (bond_of g) * (1/3 * angle_w d af i' j' (bond_of g)))%R); [f_equal; lra|]. intros e g Hg. apply elem_kind in Hg as [Hg Ek]. specialize (HL g Hg Ek).
      destruct (gAtoms g) as [|i [|j [|j2 [|]]]] eqn:E; try discriminate. slots Hg E. destruct (near_slots g 0 i j Hg K K0 h h0 I X I0 X0) as [_ D1]. destruct (near_slots g 1 j j2 Hg K0 K1 h0 h1 I0 X0 I1 X1) as [_ D2].
      rewrite D1, D2, (localInt_ind _ _ L), (localInt_ind _ _ L0), (localInt_ind _ _ L1), (cnt_list g _ E), !sum_cons, sum_nil. unfold angle_w. cbn [bAtoms bond_of bType fst snd]. rewrite E.
      assert (HV : forall w v c, vget (vscale w v) c = (w * vget v c)%R) by (intros w v c; destruct c as [|[|]]; cbn [vget vscale vx vy vz]; lra). rewrite !HV. f_equal. lra.
    Qed.
    Lemma dihedral_energy_val k : (forall g, g ∈ gpGroups p -> gKind g = k -> length (gAtoms g) = 4) ->
      dihedral_energy dsr de k (gpGroups p) q = Ok (sum_over (kind_groups k (gpGroups p)) (fun g => cnt (bond_of g) * (1/4 * dihedral_u d de (bond_of g))))%R.
    Proof.
      intros HL. unfold dihedral_energy. rewrite (foldM_sum _ (fun g => cnt (bond_of g) * (1/4 * dihedral_u d de (bond_of g)))%R); [f_equal; lra|]. intros e g Hg. apply elem_kind in Hg as [Hg Ek]. specialize (HL g Hg Ek).
      destruct (gAtoms g) as [|i [|j [|j2 [|j3 [|]]]]] eqn:E; try discriminate. slots Hg E. destruct (near_slots g 0 i j Hg K K0 h h0 I X I0 X0) as [_ D1]. destruct (near_slots g 1 j j2 Hg K0 K1 h0 h1 I0 X0 I1 X1) as [_ D2]. destruct (near_slots g 2 j2 j3 Hg K1 K2 h1 h2 I1 X1 I2 X2) as [_ D3].
      unfold dihedral_drs. rewrite D1, D2, D3, (localInt_ind _ _ L), (localInt_ind _ _ L0), (localInt_ind _ _ L1), (localInt_ind _ _ L2), (cnt_list g _ E), !sum_cons, sum_nil. unfold dihedral_u. cbn [bAtoms bond_of bType fst snd vx vy vz]. rewrite E. f_equal. lra.
    Qed.
    (** As the code has it: with the second separation given twice. *)
    Lemma dihedral_stress_val i' j' k : (forall g, g ∈ gpGroups p -> gKind g = k -> length (gAtoms g) = 4) ->
      dihedral_stress dsr df i' j' k (gpGroups p) q = Ok (sum_over (kind_groups k (gpGroups p)) (fun g => cnt (bond_of g) * (1/4 * dihedral_w d (fun d1 d2 _ => df d1 d2 d2) i' j' (bond_of g))))%R.
    Proof.
      intros HL. unfold dihedral_stress. rewrite (foldM_sum _ (fun g => cnt (bond_of g) * (1/4 * dihedral_w d (fun d1 d2 _ => df d1 d2 d2) i' j' (bond_of g)))%R); [f_equal; lra|]. intros e g Hg. apply elem_kind in Hg as [Hg Ek]. specialize (HL g Hg Ek).
      destruct (gAtoms g) as [|i [|j [|j2 [|j3 [|]]]]] eqn:E; try discriminate. slots Hg E. destruct (near_slots g 0 i j Hg K K0 h h0 I X I0 X0) as [_ D1]. destruct (near_slots g 1 j j2 Hg K0 K1 h0 h1 I0 X0 I1 X1) as [_ D2]. destruct (near_slots g 2 j2 j3 Hg K1 K2 h1 h2 I1 X1 I2 X2) as [_ D3].
      unfold dihedral_drs. rewrite D1, D2, D3, (localInt_ind _ _ L), (localInt_ind _ _ L0), (localInt_ind _ _ L1), (localInt_ind _ _ L2), (cnt_list g _ E), !sum_cons, sum_nil. unfold dihedral_w. cbn [bAtoms bond_of bType fst snd vx vy vz]. rewrite E.
      assert (HV : forall w v c, vget (vscale w v) c = (w * vget v c)%R) by (intros w v c; destruct c as [|[|]]; cbn [vget vscale vx vy vz]; lra). rewrite !HV. f_equal. lra.
    Qed.

    (** *** Forces *)
    Definition live (l : list (nat * vec3 R)) : list (nat * vec3 R) := List.filter (fun x => isLocal q x.1) l.
    Lemma live_cons x l m : fold_left add_force (live l) (add_local q m x) = fold_left add_force (live (x :: l)) m.
    Proof. unfold live, add_local. cbn [List.filter]. by destruct (isLocal q x.1). Qed.
    Lemma live_nil m : m = fold_left add_force (live []) m.
    Proof. done. Qed.
    Lemma local_true h : h ∈ xpLocals q -> isLocal q h = true.
    Proof. intros H. destruct HG as (_ & _ & _ & ND). unfold isLocal. rewrite EG. rewrite bool_decide_false; [done|]. intros X. rewrite EL in H. by apply (ND h X). Qed.
    Lemma live_sum l h c : h ∈ xpLocals q -> sum_over (live l) (fun x => if decide (x.1 = h) then vget x.2 c else 0%R) = sum_over l (fun x => if decide (x.1 = h) then vget x.2 c else 0%R).
    Proof.
      intros Hh. induction l as [|x l IH]; [done|]. unfold live in *. cbn [List.filter]. rewrite sum_cons, <- IH. destruct (isLocal q x.1) eqn:E; [by rewrite sum_cons|]. rewrite decide_False; [lra|]. intros X. rewrite X, (local_true h Hh) in E. done.
    Qed.
    Lemma live_ghost l h c : h ∈ xpGhosts q -> sum_over (live l) (fun x => if decide (x.1 = h) then vget x.2 c else 0%R) = 0%R.
    Proof.
      intros Hh. apply sum_0. intros x Hx. unfold live in Hx. rewrite elem_of_list_In, filter_In in Hx. destruct Hx as [_ Hx]. rewrite decide_False; [done|]. intros X. rewrite X in Hx. unfold isLocal in Hx. by rewrite bool_decide_true in Hx.
    Qed.
    Lemma sum_live_flat (inc : ggroup -> list (nat * vec3 R)) l h c : sum_over (flat_map (fun g => live (inc g)) l) (fun x => if decide (x.1 = h) then vget x.2 c else 0%R) =
      sum_over l (fun g => sum_over (live (inc g)) (fun x => if decide (x.1 = h) then vget x.2 c else 0%R)).
    Proof. apply sum_flat. Qed.
    (** Forces of a kind of groups, given what each of them adds. *)
    Lemma forces_val k (st : xproc -> (nat -> xatom) -> ggroup -> outcome (nat -> xatom)) (inc : ggroup -> list (nat * vec3 R)) (fs : bond -> list (vec3 R)) m :
      alike (xpMem q) m -> (forall m' g, g ∈ gpGroups p -> gKind g = k -> alike (xpMem q) m' -> st (with_mem q m) m' g = Ok (fold_left add_force (live (inc g)) m')) ->
      (forall g h c, g ∈ gpGroups p -> gKind g = k -> h ∈ xpLocals q -> c < 3 -> sum_over (inc g) (fun x => if decide (x.1 = h) then vget x.2 c else 0%R) = on_atom (xId (xpMem (gpX p) h)) c (bond_of g) (fs (bond_of g))) ->
      exists m', foldM (st (with_mem q m)) m (kind_groups k (gpGroups p)) = Ok m' /\ alike m m' /\
        (forall h c, h ∈ xpLocals q -> c < 3 -> vget (xForce (m' h)) c = (vget (xForce (m h)) c + sum_over (kind_groups k (gpGroups p)) (fun g => on_atom (xId (xpMem (gpX p) h)) c (bond_of g) (fs (bond_of g))))%R) /\
        forall h c, h ∈ xpGhosts q -> c < 3 -> vget (xForce (m' h)) c = vget (xForce (m h)) c.
    Proof.
      intros Hm Hst Hinc. exists (fold_left add_force (flat_map (fun g => live (inc g)) (kind_groups k (gpGroups p))) m).
      split; [|split; [apply adds_comp|split]].
      - apply (foldM_adds _ (fun g => live (inc g)) (xpMem q)); [|done]. intros m' g Hg Hm'. apply elem_kind in Hg as [Hg Ek]. by apply Hst.
      - intros h c Hh Hc. rewrite (proj2 (adds_comp _ _)) by done. f_equal. rewrite sum_live_flat. apply sum_ext. intros g Hg. apply elem_kind in Hg as [Hg Ek]. rewrite live_sum by done. by apply Hinc.
      - intros h c Hh Hc. rewrite (proj2 (adds_comp _ _)) by done. rewrite sum_live_flat. rewrite sum_0; [lra|]. intros g _. by apply live_ghost.
    Qed.
    Lemma alike_pos m h : alike (xpMem q) m -> xPos (m h) = xPos (xpMem q h).
    Proof. intros H. by destruct (H h) as [f ->]. Qed.
    Lemma opposite_neg f : neg3 f = opposite f.
    Proof. unfold neg3, opposite, vscale. f_equal; lra. Qed.
    Definition bond_inc (g : ggroup) : list (nat * vec3 R) := match gptr g 0, gptr g 1, gAtoms g with
      | Ok h0, Ok h1, [i; j] => let f := vscale (bfo (normSq (d i j)) (gType g)) (d i j) in [(h0, f); (h1, neg3 f)] | _, _, _ => [] end.
    Definition angle_inc (g : ggroup) : list (nat * vec3 R) := match gptr g 0, gptr g 1, gptr g 2, gAtoms g with
      | Ok h0, Ok h1, Ok h2, [i; j; k] => let f := af (d j i) (d k j) (gType g) in [(h0, f.1); (h1, neg3 f.1); (h1, f.2); (h2, neg3 f.2)] | _, _, _, _ => [] end.
    Definition dihedral_inc (g : ggroup) : list (nat * vec3 R) := match gptr g 0, gptr g 1, gptr g 2, gptr g 3, gAtoms g with
      | Ok h0, Ok h1, Ok h2, Ok h3, [i; j; k; l] => let f := df (d j i) (d k j) (d l k) (gType g) in
          [(h0, vx f); (h1, neg3 (vx f)); (h1, vy f); (h2, neg3 (vy f)); (h2, vz f); (h3, neg3 (vz f))] | _, _, _, _, _ => [] end.
    Lemma dec_eq (P Q : Prop) `{Decision P} `{Decision Q} (x y : R) : (P <-> Q) -> (if decide P then x else y) = (if decide Q then x else y).
    Proof. intros E. destruct (decide P), (decide Q); tauto. Qed.
    Lemma dec_slot h h' id (x : R) : (h = h' <-> xId (xpMem (gpX p) h') = id) -> (if decide (h = h') then x else 0%R) = (if decide (id = xId (xpMem (gpX p) h')) then x else 0%R).
    Proof. intros E. apply dec_eq. rewrite E. split; by intros ->. Qed.
    Lemma neg_comp f c : c < 3 -> vget (neg3 f) c = (- vget f c)%R.
    Proof. apply neg3_comp. Qed.
    Lemma vsub_comp f f' c : c < 3 -> vget (vsub f f') c = (vget f c - vget f' c)%R.
    Proof. intros Hc. destruct c as [|[|[|]]]; [done|done|done|lia]. Qed.
    Lemma bond_forces_val k m : (forall g, g ∈ gpGroups p -> gKind g = k -> length (gAtoms g) = 2) -> alike (xpMem q) m ->
      exists m', bond_forces dsr bfo k (gpGroups p) (with_mem q m) = Ok (with_mem q m') /\ alike m m' /\
        (forall h c, h ∈ xpLocals q -> c < 3 -> vget (xForce (m' h)) c = (vget (xForce (m h)) c + sum_over (kind_groups k (gpGroups p)) (fun g => on_atom (xId (xpMem (gpX p) h)) c (bond_of g) (bond_fs d bfo (bond_of g))))%R) /\
        forall h c, h ∈ xpGhosts q -> c < 3 -> vget (xForce (m' h)) c = vget (xForce (m h)) c.
    Proof.
      intros HL Hm. destruct (forces_val k (bond_force dsr bfo) bond_inc (bond_fs d bfo) m Hm) as (m' & E' & H1 & H2 & H3).
      - intros m' g Hg Ek Hm'. specialize (HL g Hg Ek). destruct (gAtoms g) as [|i [|j [|]]] eqn:E; try discriminate. unfold bond_force, bond_inc. rewrite E. slots Hg E.
        destruct (near_slots g 0 i j Hg K K0 h h0 I X I0 X0) as [[D1 _] _]. rewrite !(alike_pos m') by done. rewrite D1. cbn [fst snd]. f_equal. rewrite <- !live_cons. done.
      - intros g h' c Hg Ek Hh Hc. specialize (HL g Hg Ek). destruct (gAtoms g) as [|i [|j [|]]] eqn:E; try discriminate. unfold bond_inc, on_atom, bond_fs. cbn [bAtoms bond_of bType]. rewrite E. slots Hg E. cbn zeta. cbn [zip zip_with].
        rewrite !sum_cons, !sum_nil. cbn [fst snd]. rewrite (dec_slot _ _ _ _ (U h' Hh)), (dec_slot _ _ _ _ (U0 h' Hh)), opposite_neg. done.
      - exists m'. unfold bond_forces. cbn [xpMem with_mem]. rewrite E'. done.
    Qed.
    Lemma angle_forces_val k m : (forall g, g ∈ gpGroups p -> gKind g = k -> length (gAtoms g) = 3) -> alike (xpMem q) m ->
      exists m', angle_forces dsr af k (gpGroups p) (with_mem q m) = Ok (with_mem q m') /\ alike m m' /\
        (forall h c, h ∈ xpLocals q -> c < 3 -> vget (xForce (m' h)) c = (vget (xForce (m h)) c + sum_over (kind_groups k (gpGroups p)) (fun g => on_atom (xId (xpMem (gpX p) h)) c (bond_of g) (angle_fs d af (bond_of g))))%R) /\
        forall h c, h ∈ xpGhosts q -> c < 3 -> vget (xForce (m' h)) c = vget (xForce (m h)) c.
    Proof.
      intros HL Hm. destruct (forces_val k (angle_force dsr af) angle_inc (angle_fs d af) m Hm) as (m' & E' & H1 & H2 & H3).
      - intros m' g Hg Ek Hm'. specialize (HL g Hg Ek). destruct (gAtoms g) as [|i [|j [|j2 [|]]]] eqn:E; try discriminate. unfold angle_force, angle_inc. rewrite E. slots Hg E.
        destruct (near_slots g 0 i j Hg K K0 h h0 I X I0 X0) as [_ D1]. destruct (near_slots g 1 j j2 Hg K0 K1 h0 h1 I0 X0 I1 X1) as [_ D2]. rewrite !(alike_pos m') by done. rewrite D1, D2. cbn [fst snd]. f_equal. rewrite <- !live_cons. done.
      - intros g h' c Hg Ek Hh Hc. specialize (HL g Hg Ek). destruct (gAtoms g) as [|i [|j [|j2 [|]]]] eqn:E; try discriminate. unfold angle_inc, on_atom, angle_fs. cbn [bAtoms bond_of bType]. rewrite E. slots Hg E. cbn zeta. cbn [zip zip_with].
        rewrite !sum_cons, !sum_nil. cbn [fst snd]. rewrite !(dec_slot h _ _ _ (U h' Hh)), !(dec_slot h0 _ _ _ (U0 h' Hh)), !(dec_slot h1 _ _ _ (U1 h' Hh)), <- opposite_neg. rewrite vsub_comp by done. rewrite (neg_comp (af _ _ _).1) by done.
        repeat match goal with |- context [decide ?P] => destruct (decide P) end; lra.
      - exists m'. unfold angle_forces. cbn [xpMem with_mem]. rewrite E'. done.
    Qed.
    Lemma dihedral_forces_val k m : (forall g, g ∈ gpGroups p -> gKind g = k -> length (gAtoms g) = 4) -> alike (xpMem q) m ->
      exists m', dihedral_forces dsr df k (gpGroups p) (with_mem q m) = Ok (with_mem q m') /\ alike m m' /\
        (forall h c, h ∈ xpLocals q -> c < 3 -> vget (xForce (m' h)) c = (vget (xForce (m h)) c + sum_over (kind_groups k (gpGroups p)) (fun g => on_atom (xId (xpMem (gpX p) h)) c (bond_of g) (dihedral_fs d df (bond_of g))))%R) /\
        forall h c, h ∈ xpGhosts q -> c < 3 -> vget (xForce (m' h)) c = vget (xForce (m h)) c.
    Proof.
      intros HL Hm. destruct (forces_val k (dihedral_force dsr df) dihedral_inc (dihedral_fs d df) m Hm) as (m' & E' & H1 & H2 & H3).
      - intros m' g Hg Ek Hm'. specialize (HL g Hg Ek). destruct (gAtoms g) as [|i [|j [|j2 [|j3 [|]]]]] eqn:E; try discriminate. unfold dihedral_force, dihedral_inc. rewrite E. slots Hg E.
        destruct (near_slots g 0 i j Hg K K0 h h0 I X I0 X0) as [_ D1]. destruct (near_slots g 1 j j2 Hg K0 K1 h0 h1 I0 X0 I1 X1) as [_ D2]. destruct (near_slots g 2 j2 j3 Hg K1 K2 h1 h2 I1 X1 I2 X2) as [_ D3].
        unfold dihedral_drs. rewrite !(alike_pos m') by done. rewrite D1, D2, D3. cbn [fst snd vx vy vz]. f_equal. rewrite <- !live_cons. done.
      - intros g h' c Hg Ek Hh Hc. specialize (HL g Hg Ek). destruct (gAtoms g) as [|i [|j [|j2 [|j3 [|]]]]] eqn:E; try discriminate. unfold dihedral_inc, on_atom, dihedral_fs. cbn [bAtoms bond_of bType]. rewrite E. slots Hg E. cbn zeta. cbn [zip zip_with].
        rewrite !sum_cons, !sum_nil. cbn [fst snd]. rewrite !(dec_slot h _ _ _ (U h' Hh)), !(dec_slot h0 _ _ _ (U0 h' Hh)), !(dec_slot h1 _ _ _ (U1 h' Hh)), !(dec_slot h2 _ _ _ (U2 h' Hh)), <- opposite_neg. rewrite !vsub_comp by done. rewrite (neg_comp (vx _)), (neg_comp (vy _)) by done.
        repeat match goal with |- context [decide ?P] => destruct (decide P) end; lra.
      - exists m'. unfold dihedral_forces. cbn [xpMem with_mem]. rewrite E'. done.
    Qed.
  End energies.
End proc.
