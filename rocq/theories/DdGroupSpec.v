(** What the energies, stresses and forces of covalent groups of the parallel program are supposed to be: sums over all groups of the system. *)
From Verif Require Import Base Vec3 OrthoModel MonoModel BoxSpec OrthoSpec MonoSpec DomainModel EnergySpec ExchModel ExchSpec ExchUpdSpec GExchModel GExchSpec DdPairSpec.
From Coq Require Import Reals.
Local Open Scope nat_scope.

(** Boxes: lattice vectors, generalized coordinates, distanceSq without and with the separation, and minLength. *)
Inductive a_metric : (nat -> vec3 R) -> (vec3 R -> vec3 R) -> (vec3 R -> vec3 R -> R) -> (vec3 R -> vec3 R -> R * vec3 R) -> R -> Prop :=
| am_ortho b : a_box b -> a_metric (fun i => vset (V3 0 0 0)%R i (vget (oLen b) i)) (cartToGen b) (distanceSq b) (distanceSq_dr b) (oMinLen b)
| am_mono b : a_mbox b -> a_metric (fun i => match i with 0 => V3 (vx (mL b)) 0 0 | 1 => V3 0 (vy (mL b)) (mD b) | _ => V3 0 0 (vz (mL b)) end%R)
                           (mono_cartToGen b) (mono_distanceSq b) (mono_distanceSq_dr b) (mMinLen b).

(** Positions by atom id. *)
Definition positions (sys : list xproc) (pos : Z -> vec3 R) : Prop := forall a, a ∈ local_addrs sys -> pos (xId (mem_at sys a)) = xPos (mem_at sys a).
(** [v] is a separation of atoms [i] and [j] shorter than half the smallest length of the box; there is at most one. *)
Definition nearest (A : nat -> vec3 R) (ml : R) (pos : Z -> vec3 R) (i j : Z) (v : vec3 R) : Prop :=
  exists n, v = vsub (pos i) (lattice_move A (pos j) n) /\ (normSq v < (ml / 2) * (ml / 2))%R.
(** [d] are the separations of atoms that follow each other in a group. *)
Definition separations (A : nat -> vec3 R) (ml : R) (pos : Z -> vec3 R) (G : list bond) (d : Z -> Z -> vec3 R) : Prop := forall b k i j,
  b ∈ G -> bAtoms b !! k = Some i -> bAtoms b !! S k = Some j -> nearest A ml pos i j (d i j) /\ nearest A ml pos j i (d j i).
(** No two atoms or ghosts of a processor are more than one and a half periods apart. *)
Definition compact (toGen : vec3 R -> vec3 R) (sys : list xproc) : Prop := forall r p h h' i, sys !! r = Some p -> h ∈ xpLocals p ++ xpGhosts p -> h' ∈ xpLocals p ++ xpGhosts p -> i < 3 ->
  (Rabs (vget (toGen (xPos (xpMem p h))) i - vget (toGen (xPos (xpMem p h'))) i) <= 3/2)%R.

(** Groups of a kind. *)
Definition kind_bonds (k : nat) (G : list bond) : list bond := List.filter (fun b => Nat.eqb (bKind b) k) G.
(** Bonds have two atoms, angles three and dihedrals four. *)
Definition shaped (kB kA kD : nat) (G : list bond) : Prop := Forall (fun b => (bKind b = kB -> length (bAtoms b) = 2) /\ (bKind b = kA -> length (bAtoms b) = 3) /\ (bKind b = kD -> length (bAtoms b) = 4)) G.

Section groups.
  Context (d : Z -> Z -> vec3 R).
  Context (bu bfo : R -> Z -> R) (ae : R -> Z -> R) (af : vec3 R -> vec3 R -> Z -> vec3 R * vec3 R).
  Context (de : vec3 R -> vec3 R -> vec3 R -> Z -> R) (df : vec3 R -> vec3 R -> vec3 R -> Z -> vec3 (vec3 R)).
  (** Energies of a bond, an angle and a dihedral. *)
  Definition bond_u (b : bond) : R := match bAtoms b with [i; j] => bu (normSq (d i j)) (bType b) | _ => 0%R end.
  Definition angle_u (b : bond) : R := match bAtoms b with
    [i; j; k] => ae (vdot (d j i) (d k j) / sqrt (normSq (d j i) * normSq (d k j)))%R (bType b) | _ => 0%R end.
  Definition dihedral_u (b : bond) : R := match bAtoms b with [i; j; k; l] => de (d j i) (d k j) (d l k) (bType b) | _ => 0%R end.
  (** Forces on the atoms: a derivative with respect to a separation acts on both of its ends. *)
  Definition opposite (f : vec3 R) : vec3 R := vscale (-1) f.
  Definition bond_fs (b : bond) : list (vec3 R) := match bAtoms b with
    [i; j] => let f := vscale (bfo (normSq (d i j)) (bType b)) (d i j) in [f; opposite f] | _ => [] end.
  Definition angle_fs (b : bond) : list (vec3 R) := match bAtoms b with
    [i; j; k] => let f := af (d j i) (d k j) (bType b) in [f.1; vsub f.2 f.1; opposite f.2] | _ => [] end.
  Definition dihedral_fs (b : bond) : list (vec3 R) := match bAtoms b with
    [i; j; k; l] => let f := df (d j i) (d k j) (d l k) (bType b) in [vx f; vsub (vy f) (vx f); vsub (vz f) (vy f); opposite (vz f)] | _ => [] end.
  (** Virials: forces times separations. *)
  Definition bond_w (i' j' : nat) (b : bond) : R := match bAtoms b with [i; j] => (vget (vscale (bfo (normSq (d i j)) (bType b)) (d i j)) i' * vget (d i j) j')%R | _ => 0%R end.
  Definition angle_w (i' j' : nat) (b : bond) : R := match bAtoms b with
    [i; j; k] => let f := af (d j i) (d k j) (bType b) in (- (vget f.1 i' * vget (d j i) j' + vget f.2 i' * vget (d k j) j'))%R | _ => 0%R end.
  Definition dihedral_w (i' j' : nat) (b : bond) : R := match bAtoms b with
    [i; j; k; l] => let f := df (d j i) (d k j) (d l k) (bType b) in (- (vget (vx f) i' * vget (d j i) j' + vget (vy f) i' * vget (d k j) j' + vget (vz f) i' * vget (d l k) j'))%R | _ => 0%R end.
End groups.
(** Component of the force of a group on an atom: the sum over the places at which the atom is in the group. *)
Definition on_atom (id : Z) (c : nat) (b : bond) (fs : list (vec3 R)) : R := sum_over (zip (bAtoms b) fs) (fun x => if decide (x.1 = id) then vget x.2 c else 0%R).
