(** Model of McMd::Activate (src/mcMd/chemistry/Activate.cpp) on the arrays of a simulation, compiled with SIMP_BOND, SIMP_ANGLE
    and SIMP_DIHEDRAL. *)
From Verif Require Import Base SpeciesModel SimModel.

(** Atom::isActives_ (Atom.h:221) of each atom and Group::nInActive_ (Group.h:120) of each bond, angle and dihedral. *)
Record act := Act { acAtoms : list bool; acB : list Z; acA : list Z; acD : list Z }.
(** All atoms and groups are constructed active: Atom.cpp:86-89, Group.h:149-156. *)
Definition act0 (s : sim) : act :=
  Act (replicate (length (siAtoms s)) true) (replicate (length (gsArr (siBonds s))) 0%Z)
      (replicate (length (gsArr (siAngles s))) 0%Z) (replicate (length (gsArr (siDihedrals s))) 0%Z).

(** One kind of group in deactivate and reactivate, Activate.cpp:46-52, 54-60, 63-69, 93-99, 101-107, 110-116:
    molecule.bond(groupIds[i]).incrementInactive() (Group.h:244-259) for the groups of atom [a] of molecule [p].
    The assertions are not compiled. *)
Definition bump (d : Z) (gs : groups) (tab : gtab) (p : nat) (a : Z) (cnt : list Z) : outcome (list Z) :=
  if bool_decide (gtN tab = 0%Z) then Ok cnt else
  let? ids := zget (gtIds tab) a in
  let? (f, _) := aget (gsMol gs) p in
  foldM (fun cnt id =>
    let? c := zget cnt (Z.of_nat f + id)%Z in
    zset cnt (Z.of_nat f + id)%Z (c + d)%Z) cnt ids.

(** deactivate ([to] = false), Activate.cpp:31-72, and reactivate ([to] = true), 77-121. *)
Definition flip (to : bool) (s : sim) (st : act) (x : nat) : outcome act :=
  let? b := aget (acAtoms st) x in
  let? _ := check (bool_decide (b = negb to)) in
  let? fl := aset (acAtoms st) x to in
  let? at' := aget (siAtoms s) x in
  let? ml := aget (siMols s) (atMol at') in
  let? sp := aget (siSpecies s) (moSpecies ml) in
  let a := (Z.of_nat x - Z.of_nat (moFirst ml))%Z in
  let d := if to then (-1)%Z else 1%Z in
  let? b := bump d (siBonds s) (spBond sp) (atMol at') a (acB st) in
  let? an := bump d (siAngles s) (spAngle sp) (atMol at') a (acA st) in
  let? di := bump d (siDihedrals s) (spDihedral sp) (atMol at') a (acD st) in
  Ok (Act fl b an di).

(** The loops of activate(Molecule&), Activate.cpp:126-147: elements [f] .. [f + n - 1] of an array are set to [v]. *)
Definition fill {A} (l : list A) (f n : nat) (v : A) : outcome (list A) :=
  foldM (fun l i => aset l (f + i) v) l (seq 0 n).
(** Activate.cpp:126-147. *)
Definition activate (s : sim) (st : act) (p : nat) : outcome act :=
  let? ml := aget (siMols s) p in
  let? fl := fill (acAtoms st) (moFirst ml) (moNAtom ml) true in
  let? (fb, nb) := aget (gsMol (siBonds s)) p in
  let? b := fill (acB st) fb nb 0%Z in
  let? (fa, na) := aget (gsMol (siAngles s)) p in
  let? an := fill (acA st) fa na 0%Z in
  let? (fd, nd) := aget (gsMol (siDihedrals s)) p in
  let? di := fill (acD st) fd nd 0%Z in
  Ok (Act fl b an di).

(** Group::isActive, Group.h:204-206, and Group::nInActive, 211-213, for group [gi] of an array. *)
Definition group_active (cnt : list Z) (gi : nat) : outcome bool :=
  let? c := aget cnt gi in Ok (bool_decide (c = 0%Z)).

(** The public member functions, Activate.h:51-68. *)
Inductive act_op := ODeactivate (x : nat) | OReactivate (x : nat) | OActivate (p : nat).
(** A call; if it throws, it does so before any change.  Activate.cpp:31-147. *)
Definition act_step (s : sim) (st : act) (o : act_op) : outcome act :=
  match o with
  | ODeactivate x => flip false s st x
  | OReactivate x => flip true s st x
  | OActivate p => activate s st p
  end.
