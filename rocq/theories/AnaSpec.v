(** Molecules followed across faces of the box, and what is measured on them. *)
From Verif Require Import Base Vec3 BoxSpec OrthoModel OrthoSpec EnergySpec MdModel MdSpec ClusterComSpec.
From Coq Require Import Reals.
Local Open Scope R_scope.

(** A relation between consecutive elements of a list. *)
Fixpoint chain {A} (P : A -> A -> Prop) (l : list A) : Prop :=
  match l with a :: ((b :: _) as l') => P a b /\ chain P l' | _ => True end.
(** u gives images of the atoms of a molecule such that consecutive atoms are less than half an edge apart along each axis.  Positions are in
    the cell or near it: not more than 3/2 edges apart. *)
Definition contiguous (b : ortho) (pos u : nat -> vec3 R) (mol : list nat) : Prop :=
  same_images (oBrav b) mol pos u /\
  chain (fun a a' => half_about (oLen b) (u a) (u a') /\ forall i, (i < 3)%nat -> Rabs (vget (pos a) i - vget (pos a') i) <= 3/2 * vget (oLen b) i) mol.
(** The mean squared distance of some atoms from their mean. *)
Definition gyration (A : list nat) (u : nat -> vec3 R) : R := / INR (length A) * sum_over A (fun a => normSq (vsub (u a) (mean A u))).
(** The mean of a quantity over molecules. *)
Definition mol_mean (mols : list (list nat)) (f : list nat -> R) : R := / INR (length mols) * sum_over mols f.
(** The atoms of a molecule of one type. *)
Definition of_type (ty : nat -> nat) (i : nat) (mol : list nat) : list nat := List.filter (fun a => Nat.eqb (ty a) i) mol.
(** A sum over the atoms of a molecule with weights by index. *)
Definition weighted (w : nat -> R) (mol : list nat) (u : nat -> vec3 R) : vec3 R :=
  vsum_over (seq 0 (length mol)) (fun j => vscale (w j) (u (nth j mol 0%nat))).
(** A position in the cell or less than an edge away from it. *)
Definition near_cell (b : ortho) (r : vec3 R) : Prop := forall i, (i < 3)%nat -> - vget (oLen b) i <= vget r i < 2 * vget (oLen b) i.
(** The weights of Rouse mode p of a linear molecule: cosines with the ends counted by half. *)
Definition rouse_weight (n p j : nat) : R :=
  (if Nat.eqb j 0 || Nat.eqb j (n - 1) then 1/2 else 1) * cos (PI * INR p * INR j / INR (n - 1)) / INR n.
(** Those of a ring: cosines for even p, sines for odd. *)
Definition ring_weight (n p j : nat) : R :=
  (if Nat.even p then cos (2 * PI * INR (p / 2) * INR j / INR n) else sin (2 * PI * INR ((p + 1) / 2) * INR j / INR n)) / INR n.
