(** Forces as the gradient of the energy: configurations at which the energy is differentiable. *)
From Coquelicot Require Import Coquelicot.
From Verif Require Import Base Vec3 BoxSpec OrthoModel MonoModel CellListModel PairListModel EnergyModel EnergySpec MdModel MdSpec GradSpec.
From Coq Require Import Reals.
Local Open Scope R_scope.

(** The configuration in which each atom [a] is moved by [t] times [e a]. *)
Definition displaced (pos e : nat -> vec3 R) (t : R) (a : nat) : vec3 R := GradSpec.move (pos a) (e a) t.
(** The work of the forces [F] in the displacement [e]. *)
Definition work (atoms : list nat) (F e : nat -> vec3 R) : R := sum_over atoms (fun a => vdot (F a) (e a)).

(** Two atoms are not half a cell apart along any axis, where the minimum image changes. *)
Definition off_faces (B : boundary) (p q : vec3 R) : Prop :=
  forall i, (i < 3)%nat -> Rabs (vget (bGen B p) i - vget (bGen B q) i) <> 1/2.

Section Smooth.
  Context (y : mdsys) (u : R -> Z -> Z -> R) (extE : option (vec3 R -> Z -> R)).
  (** The pair interaction is differentiable at the distance of the two atoms and forceOverR is minus its derivative divided
      by the distance, as C33 shows of the interaction classes. *)
  Definition pair_smooth (pos : nat -> vec3 R) (i j : nat) : Prop :=
    let r := sqrt (yDr y (pos i) (pos j)).1 in
    off_faces (yB y) (pos i) (pos j) /\ 0 < r /\
    is_derive (fun x => u (x * x) (yTy y i) (yTy y j)) r
      (if Rlt_dec (r * r) (yCutsq y (yTy y i) (yTy y j)) then - (yFr y (r * r) (yTy y i) (yTy y j) * r) else 0).
  (** A bond, angle or dihedral potential whose interaction is differentiable at the group, as C35, C36 and C37 show. *)
  Definition bond_smooth (pos : nat -> vec3 R) (k : fkind) (g : group) : Prop :=
    exists i j v fr, gAt g = [i; j] /\ kE (fK k) = bond_kE (bDist (yB y)) v /\ fF k = bond_kF (yDr y) fr /\
      off_faces (yB y) (pos i) (pos j) /\
      let r := sqrt (yDr y (pos i) (pos j)).1 in
      0 < r /\ is_derive (fun x => v (x * x) (gTy g)) r (- (fr (r * r) (gTy g) * r)).
  Definition angle_smooth (pos : nat -> vec3 R) (k : fkind) (g : group) : Prop :=
    exists i j l v f, gAt g = [i; j; l] /\ kE (fK k) = angle_kE (fun p q => (yDr y p q).2) (bDist (yB y)) v /\
      fF k = angle_kF (yDr y) f /\ off_faces (yB y) (pos j) (pos i) /\ off_faces (yB y) (pos l) (pos j) /\
      let b1 := (yDr y (pos j) (pos i)).2 in let b2 := (yDr y (pos l) (pos j)).2 in
      0 < normSq b1 /\ 0 < normSq b2 /\
      is_grad2 (fun x1 x2 => v (cosine x1 x2) (gTy g)) b1 b2 (f b1 b2 (gTy g)).1 (f b1 b2 (gTy g)).2.
  Definition dihedral_smooth (pos : nat -> vec3 R) (k : fkind) (g : group) : Prop :=
    exists i j l m v f, gAt g = [i; j; l; m] /\ kE (fK k) = dihedral_kE (fun p q => (yDr y p q).2) v /\
      fF k = dihedral_kF (yDr y) f /\ off_faces (yB y) (pos j) (pos i) /\ off_faces (yB y) (pos l) (pos j) /\ off_faces (yB y) (pos m) (pos l) /\
      let b1 := (yDr y (pos j) (pos i)).2 in let b2 := (yDr y (pos l) (pos j)).2 in let b3 := (yDr y (pos m) (pos l)).2 in
      let '(f1, f2, f3) := f b1 b2 b3 (gTy g) in
      is_grad3 (fun x1 x2 x3 => v x1 x2 x3 (gTy g)) b1 b2 b3 f1 f2 f3.
  (** The external force is minus the gradient of the external energy. *)
  Definition field_smooth (pos : nat -> vec3 R) (a : nat) : Prop :=
    match yExt y, extE with
    | Some f, Some v => is_grad (fun r => v r (yTy y a)) (pos a) (vopp (f (pos a) (yTy y a)))
    | None, None => True
    | _, _ => False
    end.
  Record smooth_at (pos : nat -> vec3 R) : Prop := {
    sm_pairs : forall i j, i ∈ yAtoms y -> j ∈ yAtoms y -> i <> j -> yMask y i j = false -> pair_smooth pos i j;
    sm_groups : forall k m g, k ∈ yKinds y -> m ∈ kMols (fK k) -> g ∈ kGrp (fK k) m ->
      bond_smooth pos k g \/ angle_smooth pos k g \/ dihedral_smooth pos k g;
    sm_field : forall a, a ∈ yAtoms y -> field_smooth pos a
  }.
  (** The energy of a configuration of the system, as in C60. *)
  Definition md_energy (pos : nat -> vec3 R) : R :=
    total_energy (bDist (yB y)) (yMask y) u (map fK (yKinds y)) extE (yAtoms y) pos (yTy y).
End Smooth.
