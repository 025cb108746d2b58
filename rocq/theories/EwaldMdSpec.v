(** Energies of systems with charges, and configurations at which they are differentiable. *)
From Coq Require Import Reals.
From Coquelicot Require Import Coquelicot.
From Verif Require Import Base Vec3 BoxSpec OrthoModel OrthoSpec MonoModel MonoSpec CellListModel PairListModel EnergyModel EnergySpec MdModel MdSpec GradSpec MdGradSpec.
From Verif Require Import EwaldModel EwaldSpec EwaldMdModel.
From Coq Require Import Reals.
Local Open Scope R_scope.

(** The box, as the sums over waves use it, of a boundary. *)
Definition kbox_of (B : boundary) (kb : kbox) : Prop :=
  (exists b, a_box b /\ B = ortho_bd b /\ kb = ortho_kb b) \/ (exists b, a_mbox b /\ B = mono_bd b /\ kb = mono_kb b).

(** The energy of two screened charges at distance r. *)
Definition screened (eps alpha qq r : R) : R := qq / (4 * PI * eps) * (erfc (alpha * r) / r).

Section Energy.
  Context (y : mdsys) (q : Z -> R) (eps alpha rc : R).
  (** The short-range energies of a pair: the interaction [u] and the screened charges, both only up to the cutoff of the latter. *)
  Definition short_u (u : R -> Z -> Z -> R) (rsq : R) (t1 t2 : Z) : R :=
    if Rlt_dec rsq (rc * rc) then if Rlt_dec rsq (yCutsq y t1 t2) then u rsq t1 t2 else 0 else 0.
  Definition short_c (rsq : R) (t1 t2 : Z) : R :=
    if Rlt_dec rsq (rc * rc) then screened eps alpha (q t1 * q t2) (sqrt rsq) else 0.
  Definition pairs_of (u : R -> Z -> Z -> R) (pos : nat -> vec3 R) : R := pair_energy (bDist (yB y)) (yMask y) u (yAtoms y) pos (yTy y).
  (** Pairs, screened charges, groups, external field, and waves. *)
  Definition charged_energy (u : R -> Z -> Z -> R) (extE : option (vec3 R -> Z -> R)) (kb : kbox) (L : list (vec3 Z)) (pos : nat -> vec3 R) : R :=
    pairs_of (short_u u) pos + pairs_of short_c pos + sum_over (map fK (yKinds y)) (bonded_energy pos)
    + external_energy extE (yAtoms y) pos (yTy y)
    + kspace_energy eps alpha kb L (yAtoms y) (fun a => q (yTy y a)) pos.

  (** No pair at a cutoff or at distance zero or half a cell apart; interactions differentiable. *)
  Record charged_smooth (u : R -> Z -> Z -> R) (extE : option (vec3 R -> Z -> R)) (pos : nat -> vec3 R) : Prop := {
    cs_pairs : forall i j, i ∈ yAtoms y -> j ∈ yAtoms y -> i <> j -> yMask y i j = false ->
      let r := sqrt (yDr y (pos i) (pos j)).1 in
      off_faces (yB y) (pos i) (pos j) /\ 0 < r /\ r <> rc /\ r * r <> yCutsq y (yTy y i) (yTy y j) /\
      (r * r < yCutsq y (yTy y i) (yTy y j) ->
       is_derive (fun x => u (x * x) (yTy y i) (yTy y j)) r (- (yFr y (r * r) (yTy y i) (yTy y j) * r)));
    cs_groups : forall k m g, k ∈ yKinds y -> m ∈ kMols (fK k) -> g ∈ kGrp (fK k) m ->
      bond_smooth y pos k g \/ angle_smooth y pos k g \/ dihedral_smooth y pos k g;
    cs_field : forall a, a ∈ yAtoms y -> field_smooth y extE pos a
  }.
End Energy.
