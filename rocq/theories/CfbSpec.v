(** Rosenbluth weights of a chain end, in terms of the energy of the part of the system that is there. *)
From stdpp Require Import gmap.
From Verif Require Import Base Vec3 BoxSpec OrthoModel OrthoSpec MonoModel MonoSpec EnergyModel EnergySpec PairListSpec MdModel CfbModel.
From Coq Require Import Reals.
Local Open Scope R_scope.

Definition Rprod (l : list R) : R := foldr Rmult 1 l.

Section Spec.
  Context (dist2 : vec3 R -> vec3 R -> R) (wrap : vec3 R -> vec3 R) (sep : vec3 R -> vec3 R -> vec3 R).
  Context (masked : nat -> nat -> bool) (u : R -> Z -> Z -> R) (ang : option angpot) (ext : option (vec3 R -> Z -> R)) (beta : R).

  (** Energy of all angles whose three atoms are in [S]. *)
  Definition angle_energy (S : list nat) (pos : nat -> vec3 R) : R :=
    match ang with
    | None => 0
    | Some ap => sum_over (kMols (apK ap)) (fun m => sum_over (kGrp (apK ap) m) (fun g =>
        if decide (Forall (fun a => a ∈ S) (gAt g)) then angle_kE sep dist2 (apV ap) (map pos (gAt g)) (gTy g) else 0))
    end.
  (** All energies but those of bonds, if only the atoms in [S] are there. *)
  Definition part_energy (S : list nat) (pos : nat -> vec3 R) (ty : nat -> Z) : R :=
    pair_energy dist2 masked u S pos ty + angle_energy S pos + external_energy ext S pos ty.

  (** The atoms that are there when the chain [c] ends before its atom number [j]. *)
  Definition remaining (atoms c : list nat) (j : nat) : list nat := List.filter (fun a => negb (bool_decide (a ∈ drop j c))) atoms.
  (** Atom number [j] of a chain. *)
  Definition nth_atom (c : list nat) (j : nat) : nat := nth j c 0%nat.
  (** The energy needed to put atom number [j] of the chain at [q]. *)
  Definition insertion (atoms c : list nat) (pos : nat -> vec3 R) (ty : nat -> Z) (j : nat) (q : vec3 R) : R :=
    part_energy (remaining atoms c (S j)) (fun a => if decide (a = nth_atom c j) then q else pos a) ty - part_energy (remaining atoms c j) pos ty.
  (** The Rosenbluth weight of the trial positions [qs] for atom number [j]. *)
  Definition rosenbluth (atoms c : list nat) (pos : nat -> vec3 R) (ty : nat -> Z) (j : nat) (qs : list (vec3 R)) : R :=
    sum_over qs (fun q => exp (- beta * insertion atoms c pos ty j q)).

  (** Trial positions for atom number [j]: bonds of length [len] with directions [bs] to its neighbour in the chain. *)
  Definition trials (c : list nat) (pos : nat -> vec3 R) (j : nat) (len : R) (bs : list (vec3 R)) : list (vec3 R) :=
    map (fun b => wrap (vadd (pos (nth_atom c (j - 1))) (vscale len b))) bs.

  (** [new] is the configuration [old] with the last [r] atoms of the chain [c] regrown.  For the i-th atom that is grown, [used] i is the bond type for
      which a length is drawn; [adds] i are the lengths that the random numbers give for each bond type, the directions tried and the number of the
      direction taken. *)
  Definition regrown (c : list nat) (used : nat -> Z) (r : nat) (adds : nat -> (Z -> R) * list (vec3 R) * nat) (old new : nat -> vec3 R) : Prop :=
    (forall a, a ∉ drop (length c - r) c -> new a = old a) /\
    forall i, (i < r)%nat -> let j := (length c - r + i)%nat in
      exists b, (adds i).1.2 !! (adds i).2 = Some b /\
        new (nth_atom c j) = wrap (vadd (new (nth_atom c (j - 1))) (vscale ((adds i).1.1 (used i)) b)).

  (** The positions compared when the i-th atom from the end is removed: its own, and trials at the same distance from its neighbour. *)
  Definition old_trials (c : list nat) (pos : nat -> vec3 R) (dels : nat -> list (vec3 R)) (i : nat) : list (vec3 R) :=
    let j := (length c - 1 - i)%nat in
    pos (nth_atom c j) :: trials c pos j (sqrt (dist2 (pos (nth_atom c (j - 1))) (pos (nth_atom c j)))) (dels i).
  (** The positions tried for the i-th atom that is grown. *)
  Definition new_trials (c : list nat) (used : nat -> Z) (r : nat) (adds : nat -> (Z -> R) * list (vec3 R) * nat) (pos : nat -> vec3 R) (i : nat) : list (vec3 R) :=
    let j := (length c - r + i)%nat in
    trials c pos j ((adds i).1.1 (used i)) (adds i).1.2.
End Spec.

(** Angles of a linear chain: every three successive atoms form one, and no others contain its atoms. *)
Definition chain_angles (atoms mol : list nat) (k : gkind) : Prop :=
  kind_ok atoms k /\ exists m tt, m ∈ kMols k /\ (forall a, a ∈ mol -> kMolOf k a = m) /\
    kGrp k m = map (fun i => Grp (take 3 (drop i mol)) (tt i)) (seq 0 (length mol - 2)).

(** The type of the bond by which the i-th atom that is grown is attached: [ts] are the types of the bonds of a chain of [n] atoms, in order. *)
Definition attached (n r : nat) (ts : list Z) (i : nat) : Z := nth (n - r + i - 1) ts 0%Z.

(** Either boundary, and the separation vectors of its minimum images. *)
Definition separations (B : boundary) (sep : vec3 R -> vec3 R -> vec3 R) : Prop :=
  (exists b, a_box b /\ B = ortho_bd b /\ sep = fun r q => (distanceSq_dr b r q).2) \/
  (exists b, a_mbox b /\ B = mono_bd b /\ sep = fun r q => (mono_distanceSq_dr b r q).2).

(** Bond lengths and directions that do not lead further than one cell from the atom they start at. *)
Definition reaches (B : boundary) (c : list nat) (pos : nat -> vec3 R) (j : nat) (len : R) (bs : list (vec3 R)) : Prop :=
  forall b, b ∈ bs -> near_cell_of (bBrav B) (vadd (pos (nth_atom c (j - 1))) (vscale len b)).
