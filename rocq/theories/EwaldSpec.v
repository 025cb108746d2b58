(** Ewald sums as the textbooks define them: sums over all wavevectors of a periodic cell. *)
From Coq Require Import Reals.
From Coquelicot Require Import Coquelicot.
From Verif Require Import Base Vec3 BoxSpec OrthoModel OrthoSpec MonoModel MonoSpec EnergySpec EwaldModel.
From Coq Require Import Reals.
Local Open Scope R_scope.

(** The box of one of the two classes, after any calls that set it. *)
Definition ewald_box (kb : kbox) : Prop :=
  (exists b, a_box b /\ kb = ortho_kb b) \/ (exists b, a_mbox b /\ kb = mono_kb b).

(** The wavevector with integer indices [n]. *)
Definition wavevector (kb : kbox) (n : vec3 Z) : vec3 R := lattice_vector (kRecip kb) n.
Definition vneg (n : vec3 Z) : vec3 Z := vmap Z.opp n.
(** The nonzero wavevectors not longer than the cutoff. *)
Definition in_cutoff (kb : kbox) (kc : R) (n : vec3 Z) : Prop :=
  n <> V3 0%Z 0%Z 0%Z /\ normSq (wavevector kb n) <= kc * kc.
Definition all_waves (kb : kbox) (kc : R) (L : list (vec3 Z)) : Prop :=
  NoDup L /\ forall n, n ∈ L <-> in_cutoff kb kc n.

(** The Fourier transform of the Coulomb potential of a Gaussian charge. *)
Definition influence (eps alpha ksq : R) : R := exp (- ksq / (4 * alpha ^ 2)) / (eps * ksq).
(** The squared modulus of the Fourier mode of the charge density at wavevector [k]. *)
Definition density2 (atoms : list nat) (charge : nat -> R) (pos : nat -> vec3 R) (k : vec3 R) : R :=
  (sum_over atoms (fun a => charge a * cos (vdot k (pos a)))) ^ 2 + (sum_over atoms (fun a => charge a * sin (vdot k (pos a)))) ^ 2.
(** The long-range part of the energy: half the sum over all nonzero wavevectors, without the energies of the Gaussian charges
    with themselves. *)
Definition kspace_energy (eps alpha : R) (kb : kbox) (L : list (vec3 Z)) (atoms : list nat) (charge : nat -> R) (pos : nat -> vec3 R) : R :=
  / (2 * kVol kb) * sum_over L (fun n => influence eps alpha (normSq (wavevector kb n)) * density2 atoms charge pos (wavevector kb n))
  - alpha / (4 * PI * sqrt PI * eps) * sum_over atoms (fun a => charge a ^ 2).

(** Charges are zero or not tiny. *)
Definition real_charges (atoms : list nat) (charge : nat -> R) : Prop :=
  forall a, a ∈ atoms -> charge a = 0 \/ / 10 ^ 10 < Rabs (charge a).

(** A homogeneous deformation: the matrix 1 + t*E applied to a vector. *)
Definition tapply (E : tensor) (v : vec3 R) : vec3 R := V3 (vdot (vx E) v) (vdot (vy E) v) (vdot (vz E) v).
Definition strain (E : tensor) (t : R) (v : vec3 R) : vec3 R := vadd v (vscale t (tapply E v)).
(** A periodic cell given by its Bravais vectors alone: the reciprocal vectors and the volume follow from them. *)
Definition cell_of (a : vec3 (vec3 R)) : kbox :=
  KB a (vmap (vscale (2 * PI / triple a)) (V3 (cross (vy a) (vz a)) (cross (vz a) (vx a)) (cross (vx a) (vy a)))) (triple a) (fun r => r).
Definition strained_cell (E : tensor) (t : R) (a : vec3 (vec3 R)) : kbox := cell_of (vmap (strain E t) a).
(** The double contraction of two tensors. *)
Definition contract (S E : tensor) : R := vdot (vx S) (vx E) + vdot (vy S) (vy E) + vdot (vz S) (vz E).
