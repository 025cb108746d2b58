(** Structure factors: sums over pairs of atoms. *)
From Verif Require Import Base Vec3 BoxSpec EnergySpec EwaldModel EwaldSpec.
From Coq Require Import Reals.
Local Open Scope R_scope.

(** The structure factor of weighted atoms at a wavevector. *)
Definition structure_factor (kb : kbox) (c : nat -> R) (pos : nat -> vec3 R) (atoms : list nat) (n : vec3 Z) : R :=
  / kVol kb * sum_over atoms (fun a => sum_over atoms (fun b => c a * c b * cos (vdot (wavevector kb n) (vsub (pos a) (pos b))))).
(** Pairs within molecules, of one kind of atoms and another. *)
Definition intra_factor (kb : kbox) (pos : nat -> vec3 R) (kind0 kind1 : nat -> bool) (mols : list (list nat)) (n : vec3 Z) : R :=
  / kVol kb * sum_over mols (fun mol => sum_over (List.filter kind0 mol) (fun a => sum_over (List.filter kind1 mol) (fun b =>
    cos (vdot (wavevector kb n) (vsub (pos a) (pos b)))))).
(** A configuration that is sampled. *)
Record conf := Conf { cfBox : kbox; cfAtoms : list nat; cfTy : nat -> nat; cfPos : nat -> vec3 R }.
