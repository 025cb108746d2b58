(** Molecular dynamics: images, momentum, and the forces of a configuration as physics defines them. *)
From Verif Require Import Base Vec3 BoxSpec OrthoModel OrthoSpec MonoModel MonoSpec CellListModel CellListSpec PairListModel PairListSpec EnergyModel EnergySpec MdModel.
From Coq Require Import Reals.
Local Open Scope R_scope.

(** Configurations that differ only by lattice translations of atoms. *)
Definition same_images (brav : vec3 (vec3 R)) (atoms : list nat) (p q : nat -> vec3 R) : Prop :=
  forall a, a ∈ atoms -> exists m, q a = vadd (p a) (lattice_vector brav m).

Definition vsum_over {A} (l : list A) (f : A -> vec3 R) : vec3 R :=
  V3 (sum_over l (fun x => vx (f x))) (sum_over l (fun x => vy (f x))) (sum_over l (fun x => vz (f x))).
(** Total momentum. *)
Definition momentum (mass : nat -> R) (atoms : list nat) (vel : nat -> vec3 R) : vec3 R :=
  vsum_over atoms (fun a => vscale (mass a) (vel a)).

(** The state with all velocities reversed. *)
Definition reversed {X} (s : mds X) : mds X := Mds (mPos s) (fun a => vscale (-1) (mVel s a)) (mFrc s) (mX s).

(** The half-step of a state: positions from which the forces of the next step are computed. *)
Definition half_step {X} (y : mdsys) (s : mds X) (a : nat) : vec3 R :=
  vadd (mPos s a) (vscale (yDt y) (vadd (mVel s a) (vscale (yDt y / (2 * yMass y (yTy y a))) (mFrc s a)))).

(** The force between two atoms, zero from the cutoff on. *)
Definition pair_force (dr2 : vec3 R -> vec3 R -> R * vec3 R) (fr : R -> Z -> Z -> R) (cutsq : Z -> Z -> R) (r q : vec3 R) (t1 t2 : Z) : vec3 R :=
  let (rsq, d) := dr2 r q in
  if Rlt_dec rsq (cutsq t1 t2) then vscale (fr rsq t1 t2) d else V3 0 0 0.
(** The force on an atom of a group, when fs !! k acts on atom k of the group and its opposite on atom k + 1. *)
Definition group_force (ats : list nat) (fs : list (vec3 R)) (a : nat) : vec3 R :=
  vsum_over (seq 0 (length fs)) (fun k =>
    vsub (if decide (ats !! k = Some a) then default (V3 0 0 0) (fs !! k) else V3 0 0 0)
         (if decide (ats !! S k = Some a) then default (V3 0 0 0) (fs !! k) else V3 0 0 0)).

Section Spec.
  Context (y : mdsys).
  (** All unmasked other atoms, all groups, and the external field. *)
  Definition pair_part (pos : nat -> vec3 R) (a : nat) : vec3 R :=
    vsum_over (yAtoms y) (fun j => if decide (j = a) then V3 0 0 0 else if yMask y a j then V3 0 0 0 else
      pair_force (yDr y) (yFr y) (yCutsq y) (pos a) (pos j) (yTy y a) (yTy y j)).
  Definition bonded_part (pos : nat -> vec3 R) (a : nat) : vec3 R :=
    vsum_over (yKinds y) (fun k => vsum_over (kMols (fK k)) (fun m => vsum_over (kGrp (fK k) m) (fun g =>
      group_force (gAt g) (fF k (map pos (gAt g)) (gTy g)) a))).
  Definition external_part (pos : nat -> vec3 R) (a : nat) : vec3 R :=
    match yExt y with Some f => f (pos a) (yTy y a) | None => V3 0 0 0 end.
  Definition total_force (pos : nat -> vec3 R) (a : nat) : vec3 R :=
    vadd (vadd (pair_part pos a) (bonded_part pos a)) (external_part pos a).

  (** The boundary is of one of the two classes, large enough for pairs up to [c] apart. *)
  Definition md_boundary (c : R) : Prop :=
    (exists b, a_box b /\ yB y = ortho_bd b /\ yDr y = distanceSq_dr b) \/
    (exists b, a_mbox b /\ yB y = mono_bd b /\ yDr y = mono_distanceSq_dr b /\ c <= mMinLen b / 2).
  (** The system: a boundary, a cutoff not smaller than those of the interaction, symmetric interaction and masks, atoms with
      ids below [cap], and a box that has a grid of cells. *)
  Record md_ok (cap : nat) (skin cut : R) (n : vec3 Z) : Prop := {
    mo_b : md_boundary (cut + skin);
    mo_cut : 0 < cut;
    mo_cutsq : forall t1 t2, yCutsq y t1 t2 <= cut * cut;
    mo_sym : forall r t1 t2, yFr y r t1 t2 = yFr y r t2 t1 /\ yCutsq y t1 t2 = yCutsq y t2 t1;
    mo_mask : forall i j, yMask y i j = yMask y j i;
    mo_grid : grid_of (bLens (yB y)) (cut + skin) n;
    mo_nodup : NoDup (yAtoms y);
    mo_cap : forall a, a ∈ yAtoms y -> (a < cap)%nat
  }.
  (** All atoms lie within one cell of the box. *)
  Definition nearby (pos : nat -> vec3 R) : Prop := forall a, a ∈ yAtoms y -> near_cell_of (bBrav (yB y)) (pos a).
  (** The pair list was built, at some time, by MdPairPotential::buildPairList. *)
  Definition list_built (cap A Pc : nat) (skin cut : R) (p : plist) : Prop :=
    exists p0 pos0 pos1, pl_state (yM y) cap A Pc skin cut p0 /\ nearby pos0 /\
      pl_refresh (yM y) (bGen (yB y)) (bDist (yB y)) (bWrap (yB y)) (bLens (yB y)) (yMask y) (yAtoms y) pos0 p0 = Ok (pos1, p).
  (** The groups of the bonded potentials consist of atoms of the system, with one force between consecutive atoms. *)
  Definition groups_ok : Prop :=
    forall k m g, k ∈ yKinds y -> m ∈ kMols (fK k) -> g ∈ kGrp (fK k) m ->
      gAt g ⊆ yAtoms y /\ forall pos, S (length (fF k (map pos (gAt g)) (gTy g))) = length (gAt g).
End Spec.
