(** Thermostats: temperature, reversal, friction and random forces between pairs of atoms, means over random numbers. *)
From Coq Require Import Reals Lra.
From Coquelicot Require Import Coquelicot.
From Verif Require Import Base Vec3 BoxSpec OrthoModel CellListModel CellListSpec PairListModel PairListSpec EnergyModel EnergySpec MdModel MdSpec ThermoModel.
From Coq Require Import Reals.
Local Open Scope R_scope.

(** Kinetic energy, and the temperature that equipartition assigns to it (with Boltzmann's constant 1). *)
Definition kinetic_energy (y : mdsys) (vel : nat -> vec3 R) : R :=
  sum_over (yAtoms y) (fun a => yMass y (yTy y a) * normSq (vel a) / 2).
Definition kinetic_temperature (y : mdsys) (vel : nat -> vec3 R) : R :=
  2 * kinetic_energy y vel / (3 * INR (length (yAtoms y))).

(** A Nose-Hoover state moving backwards in time: velocities and xi change sign, the rate of xi does not. *)
Definition nh_reversed {X} (s : nhs X) : nhs X := Nh (reversed (nS s)) (- nXi s) (nXd s).
(** The rate of xi belongs to the velocities, as the equations of motion demand. *)
Definition nh_consistent {X} (y : mdsys) (tau T : R) (s : nhs X) : Prop :=
  nXd s = (kinetic_temperature y (mVel (nS s)) / T - 1) / (tau * tau).

(** Positions half a step ahead, when velocities are scaled by [fac] first. *)
Definition nh_half {X} (y : mdsys) (fac : R) (s : mds X) (a : nat) : vec3 R :=
  vadd (mPos s a) (vscale (yDt y) (vadd (vscale fac (mVel s a)) (vscale (yDt y / (2 * yMass y (yTy y a))) (mFrc s a)))).

Section Pairs.
  Context (y : mdsys) (cutoff : R) (w : R -> R).
  (** A central force between every two atoms that are not masked and closer than the cutoff: [c i j] times their unit vector. *)
  Definition central (c : nat -> nat -> R -> vec3 R -> R) (pos : nat -> vec3 R) (a : nat) : vec3 R :=
    vsum_over (yAtoms y) (fun j => if decide (j = a) then V3 0 0 0 else if yMask y a j then V3 0 0 0 else
      let (rsq, d) := yDr y (pos a) (pos j) in
      if Rlt_dec rsq (cutoff * cutoff) then let e := vscale (/ sqrt rsq) d in vscale (c a j (sqrt rsq) e) e else V3 0 0 0).
  (** Friction: gamma w(r)^2 times the relative velocity along the line of centres, opposite to it. *)
  Definition friction (gamma : R) (pos vel : nat -> vec3 R) (a : nat) : vec3 R :=
    central (fun i j r e => - (gamma * (w r)² * vdot (vsub (vel i) (vel j)) e)) pos a.
  (** Random forces: sigma w(r) xi with one random number xi for each pair. *)
  Definition random_force (sigma : R) (xi : nat -> nat -> R) (pos : nat -> vec3 R) (a : nat) : vec3 R :=
    central (fun i j r _ => sigma * w r * xi i j) pos a.
End Pairs.

(** Unmasked pairs closer than the cutoff. *)
Definition close_pair (y : mdsys) (cutoff : R) (pos : nat -> vec3 R) (i j : nat) : Prop :=
  i ∈ yAtoms y /\ j ∈ yAtoms y /\ i <> j /\ yMask y i j = false /\ (yDr y (pos i) (pos j)).1 < cutoff * cutoff.

(** The mean of [f] over [n] independent numbers, each uniform between 0 and 1. *)
Fixpoint mean (n : nat) (f : list R -> R) : R :=
  match n with
  | O => f []
  | S n => RInt (fun x => mean n (fun l => f (x :: l))) 0 1
  end.
(** The sequence that starts with the numbers of a list. *)
Definition numbers (l : list R) (k : nat) : R := nth k l 0.

(** The weight function of the compiled variant. *)
Definition weight (kind : nat) (cutoff r : R) : R :=
  match kind with O => 1 | S O => 1 - r / cutoff | _ => 1 - r * r / (cutoff * cutoff) end.
(** Positions after the first half of a step. *)
Definition dpd_half (y : mdsys) (s : dpds) (a : nat) : vec3 R :=
  vadd (mPos (dM s) a) (vscale (yDt y) (vadd (mVel (dM s) a) (vscale (yDt y / (2 * yMass y (yTy y a)))
    (vadd (vadd (mFrc (dM s) a) (dFD (dF s) a)) (dFR (dF s) a))))).
(** Numbers [G] of a sequence, one for each close pair of atoms: distinct, symmetric and among those from the k0-th on. *)
Definition one_for_each (y : mdsys) (cutoff : R) (pos : nat -> vec3 R) (k0 k1 : nat) (G : nat -> nat -> nat) : Prop :=
  (forall i j, G i j = G j i) /\ (forall i j, close_pair y cutoff pos i j -> (k0 <= G i j < k1)%nat) /\
  (forall i j i' j', close_pair y cutoff pos i j -> close_pair y cutoff pos i' j' -> G i j = G i' j' -> (i = i' /\ j = j') \/ (i = j' /\ j = i')).

(** The result of a run, given the numbers drawn. *)
Definition runs {X} (y : mdsys) (gamma temp : R)
    (calc : (nat -> vec3 R) -> (nat -> vec3 R) -> X -> outcome ((nat -> vec3 R) * (nat -> vec3 R) * X))
    (n : nat) (s : mds X) (fin : list R -> mds X) : Prop :=
  forall l, length l = (3 * length (yAtoms y) * n)%nat -> exists k, lang_run y gamma temp (numbers l) calc n (s, 0%nat) = Ok (fin l, k).

(** What a program started with the same base interval can load. *)
Definition loadable (bi : Z) (x : base_ar) (name : list nat) : Prop :=
  if Z_lt_dec 0 (bInt x) then (0 < bi)%Z /\ (bi | bInt x)%Z else bName x = name.
