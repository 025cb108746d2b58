(** The potential energy of a configuration, as physics defines it: a sum over pairs, over groups and over atoms. *)
From Verif Require Import Base Vec3 BoxSpec OrthoModel OrthoSpec MonoModel MonoSpec EnergyModel.
From Coq Require Import Reals.
Local Open Scope R_scope.

Fixpoint Rsum (l : list R) : R := match l with [] => 0 | x :: l => x + Rsum l end.
(** Sum of [f] over a list. *)
Definition sum_over {A} (l : list A) (f : A -> R) : R := Rsum (map f l).

Section Spec.
  Context (dist2 : vec3 R -> vec3 R -> R) (masked : nat -> nat -> bool) (u : R -> Z -> Z -> R).
  Context (kinds : list gkind) (ext : option (vec3 R -> Z -> R)).
  Context (atoms : list nat).

  (** Every unmasked pair of atoms once. *)
  Definition pair_energy (pos : nat -> vec3 R) (ty : nat -> Z) : R :=
    sum_over atoms (fun i => sum_over atoms (fun j =>
      if decide (i < j)%nat then if masked i j then 0 else u (dist2 (pos i) (pos j)) (ty i) (ty j) else 0)).
  (** Every group of a potential once. *)
  Definition bonded_energy (pos : nat -> vec3 R) (k : gkind) : R :=
    sum_over (kMols k) (fun m => sum_over (kGrp k m) (fun g => kE k (map pos (gAt g)) (gTy g))).
  Definition external_energy (pos : nat -> vec3 R) (ty : nat -> Z) : R :=
    sum_over atoms (fun a => match ext with Some f => f (pos a) (ty a) | None => 0 end).
  Definition total_energy (pos : nat -> vec3 R) (ty : nat -> Z) : R :=
    pair_energy pos ty + sum_over kinds (bonded_energy pos) + external_energy pos ty.
End Spec.

(** The lists of group ids of every atom are right: each atom's list names, once each, the groups of its molecule that
    contain it, and no group contains an atom of another molecule.  (Properties C39 and C45 show this for species and
    links.) *)
Definition kind_ok (atoms : list nat) (k : gkind) : Prop :=
  NoDup (kMols k) /\
  forall a, a ∈ atoms ->
    kMolOf k a ∈ kMols k /\ NoDup (kIds k a) /\
    (forall id, id ∈ kIds k a <-> exists g, kGrp k (kMolOf k a) !! id = Some g /\ a ∈ gAt g) /\
    (forall m g, m ∈ kMols k -> g ∈ kGrp k m -> a ∈ gAt g -> m = kMolOf k a).

(** Either boundary class, after any calls that set it up with positive lengths. *)
Definition a_boundary (B : boundary) : Prop :=
  (exists b, a_box b /\ B = ortho_bd b) \/ (exists b, a_mbox b /\ B = mono_bd b).
(** A pair interaction: no energy beyond the cutoff, and the same energy for both orders of the types. *)
Definition interaction_ok (cut : R) (u : R -> Z -> Z -> R) : Prop :=
  0 < cut /\ (forall r t1 t2, cut * cut <= r -> u r t1 t2 = 0) /\ (forall r t1 t2, u r t1 t2 = u r t2 t1).
