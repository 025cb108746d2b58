(** Constant pressure and enthalpy: pressure, box shapes, reversal; the distribution of momenta drawn at random. *)
From Verif Require Import Base Vec3 BoxSpec OrthoModel OrthoSpec MonoModel MonoSpec CellListModel CellListSpec PairListModel PairListSpec EnergyModel EnergySpec MoveModel MdModel MdSpec ThermoModel ThermoSpec NphModel.
From Coq Require Import Reals.
Local Open Scope R_scope.

(** The Bravais vectors of an orthorhombic box. *)
Definition edge_vectors (l : vec3 R) : vec3 (vec3 R) := V3 (V3 (vx l) 0 0) (V3 0 (vy l) 0) (V3 0 0 (vz l)).
Definition box_volume (l : vec3 R) : R := vx l * vy l * vz l.
(** Boxes of the lattice system. *)
Definition shape (mode : lattice) (l : vec3 R) : Prop :=
  match mode with
  | Cubic => vx l = vy l /\ vy l = vz l
  | Tetragonal => vy l = vz l
  | Orthorhombic => True
  | _ => False
  end.
(** Component [i] of the pressure: [vir] from the forces, and the flow of momentum. *)
Definition pressure (y : mdsys) (vir : vec3 R) (l : vec3 R) (vel : nat -> vec3 R) (i : nat) : R :=
  vget vir i + sum_over (yAtoms y) (fun a => yMass y (yTy y a) * vget (vel a) i * vget (vel a) i) / box_volume l.

(** A box with these lengths. *)
Definition box_of (b : ortho) (l : vec3 R) : Prop := a_box b /\ oLen b = l.

(** The state moving backwards in time. *)
Definition nph_reversed {X} (s : nphs X) : nphs X := Np (hB s) (vscale (-1) (hEta s)) (hP s) (reversed (hS s)).

Section Laws.
  Context {X : Type} (y : mdsys).
  Context (Force : vec3 R -> (nat -> vec3 R) -> nat -> vec3 R) (Vir : vec3 R -> (nat -> vec3 R) -> vec3 R).
  Context (Inv : X -> Prop) (good : vec3 R -> (nat -> vec3 R) -> Prop).
  Context (relist : ortho -> (nat -> vec3 R) -> X -> outcome ((nat -> vec3 R) * X)).
  Context (calc : ortho -> (nat -> vec3 R) -> (nat -> vec3 R) -> X -> outcome ((nat -> vec3 R) * (nat -> vec3 R) * X)).
  Context (virial : ortho -> (nat -> vec3 R) -> X -> outcome (vec3 R * (nat -> vec3 R) * X)).

  (** Forces and the virial are functions of the lengths of the box and of the positions, the same for all images of atoms, and
      the three functions compute them, moving atoms only to other images. *)
  Record lawful : Prop := {
    la_nodup : NoDup (yAtoms y);
    la_relist : forall b l p x p' x', box_of b l -> Inv x -> relist b p x = Ok (p', x') -> Inv x' /\ same_images (edge_vectors l) (yAtoms y) p p';
    la_calc : forall b l p F x p' F' x', box_of b l -> Inv x -> calc b p F x = Ok (p', F', x') ->
      Inv x' /\ same_images (edge_vectors l) (yAtoms y) p p' /\ (good l p' -> forall a, a ∈ yAtoms y -> F' a = Force l p' a);
    la_virial : forall b l p x v p' x', box_of b l -> Inv x -> virial b p x = Ok (v, p', x') ->
      Inv x' /\ same_images (edge_vectors l) (yAtoms y) p p' /\ (good l p' -> v = Vir l p');
    la_good : forall l p q, good l p -> same_images (edge_vectors l) (yAtoms y) p q -> good l q;
    la_force : forall l p q a, good l p -> same_images (edge_vectors l) (yAtoms y) p q -> a ∈ yAtoms y -> Force l q a = Force l p a;
    la_vir : forall l p q, good l p -> same_images (edge_vectors l) (yAtoms y) p q -> Vir l q = Vir l p
  }.
  (** States from which a step starts: a box of the right shape, and forces that belong to the positions. *)
  Record nph_ready (mode : lattice) (s : nphs X) : Prop := {
    nr_box : box_of (hB s) (oLen (hB s));
    nr_shape : shape mode (oLen (hB s));
    nr_inv : Inv (mX (hS s));
    nr_good : good (oLen (hB s)) (mPos (hS s));
    nr_force : forall a, a ∈ yAtoms y -> mFrc (hS s) a = Force (oLen (hB s)) (mPos (hS s)) a
  }.
  (** The box does not collapse, and positions stay where the law of force applies. *)
  Definition nph_within (s : nphs X) : Prop := positive3 (oLen (hB s)) /\ good (oLen (hB s)) (mPos (hS s)).
End Laws.

(** The same box and positions up to images; velocities and barostat momenta reversed. *)
Definition nph_opposite {X} (y : mdsys) (s t : nphs X) : Prop :=
  oLen (hB t) = oLen (hB s) /\ hEta t = vscale (-1) (hEta s) /\
  same_images (edge_vectors (oLen (hB s))) (yAtoms y) (mPos (hS s)) (mPos (hS t)) /\
  forall a, a ∈ yAtoms y -> mVel (hS t) a = vscale (-1) (mVel (hS s) a).

(** Rates of change of the barostat momenta: in terms of the box lengths, and of the volume for a cubic box. *)
Definition eta_rate (mode : lattice) (extP : R) (l : vec3 R) (P : nat -> R) (i : nat) : R :=
  match mode, i with
  | Orthorhombic, _ => box_volume l / vget l i * (P i - extP)
  | Tetragonal, 0%nat => box_volume l / vget l 0 * (P 0%nat - extP)
  | Tetragonal, 1%nat => box_volume l / vget l 1 * (P 1%nat + P 2%nat - 2 * extP)
  | Cubic, 0%nat => (P 0%nat + P 1%nat + P 2%nat) / 3 - extP
  | _, _ => 0
  end.
(** The box after a time [t] with barostat momenta [eta]: dL/dt = eta / W, half of it for the two equal lengths of a tetragonal
    box, and dV/dt = eta / W for a cubic one. *)
Definition box_after (mode : lattice) (W t : R) (l eta l' : vec3 R) : Prop :=
  match mode with
  | Orthorhombic => forall i, (i < 3)%nat -> vget l' i = vget l i + t * vget eta i / W
  | Tetragonal => vx l' = vx l + t * vx eta / W /\ vy l' = vy l + t * vy eta / (2 * W) /\ vz l' = vy l'
  | Cubic => box_volume l' = box_volume l + t * vx eta / W /\ 0 < vx l' /\ vy l' = vx l' /\ vz l' = vx l'
  | _ => False
  end.

(** Numbers g(0), ..., g(n-1) with a normal distribution of unit variance, drawn independently, have a density proportional to
    exp(-(g(0)^2 + ...)/2).  Momenta with energy E computed from them have the Boltzmann distribution if that is, up to a
    constant, exp(-E/T). *)
Definition boltzmann_distributed (n : nat) (T : R) (E : (nat -> R) -> R) : Prop :=
  exists c, 0 < c /\ forall g, exp (- (E g / T)) = c * exp (- sum_over (seq 0 n) (fun k => g k * g k) / 2).
(** The number of barostat momenta. *)
Definition barostat_freedom (mode : lattice) : nat := match mode with Cubic => 1 | Tetragonal => 2 | Orthorhombic => 3 | _ => 0 end.
