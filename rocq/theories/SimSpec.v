(** What the arrays of a simulation must be after initialisation, in terms of the species only. *)
From Verif Require Import Base SpeciesModel SpeciesSpec SimModel.

(** Two bonds never join the same atoms and an atom has at most 4 of them (the capacity of a Mask). *)
Definition simple_bonds (g : gtab) : Prop :=
  (forall b1 b2 g1 g2, gtGroups g !! b1 = Some g1 -> gtGroups g !! b2 = Some g2 ->
     (forall a, a ∈ sgAtoms g1 <-> a ∈ sgAtoms g2) -> b1 = b2) /\
  (forall l, l ∈ gtIds g -> length l <= 4).
(** Species a simulation can be made of. *)
Definition input_ok (sps : list species) : Prop :=
  sps <> [] /\
  forall i sp, sps !! i = Some sp ->
    spId sp = Z.of_nat i /\ (0 < spCap sp)%Z /\ (0 < spNAtom sp)%Z /\ species_ok sp /\ simple_bonds (spBond sp).

(** The number of objects that belong to the species before species [i], with [per] objects per molecule. *)
Definition before (per : species -> Z) (sps : list species) (i : nat) : nat :=
  sum_list_with (fun s => Z.to_nat (spCap s) * Z.to_nat (per s)) (take i sps).

(** Each molecule owns a block of consecutive atoms with the types of its species. *)
Record molecules_ok (s : sim) : Prop := {
  mok_count : length (siMols s) = before (fun _ => 1%Z) (siSpecies s) (length (siSpecies s));
  mok_atoms : length (siAtoms s) = before spNAtom (siSpecies s) (length (siSpecies s));
  (** molecule m of species i *)
  mok_mol : forall i sp m, siSpecies s !! i = Some sp -> m < Z.to_nat (spCap sp) ->
    siMols s !! (before (fun _ => 1%Z) (siSpecies s) i + m) =
      Some (Mol m i (Z.to_nat (spNAtom sp)) (before spNAtom (siSpecies s) i + m * Z.to_nat (spNAtom sp)));
  (** every atom of the block of a molecule belongs to it *)
  mok_own : forall p ml sp a t, siMols s !! p = Some ml -> siSpecies s !! moSpecies ml = Some sp ->
    spTypes sp !! a = Some t ->
    exists at', siAtoms s !! (moFirst ml + a) = Some at' /\ atMol at' = p /\ atType at' = t;
  (** every atom is in the block of its molecule *)
  mok_owned : forall x at', siAtoms s !! x = Some at' ->
    exists ml, siMols s !! atMol at' = Some ml /\ moFirst ml <= x < moFirst ml + moNAtom ml
}.
(** Every molecule has its own copy of the groups of its species, made of its own atoms. *)
Definition groups_ok (s : sim) (sel : species -> gtab) (gs : groups) : Prop :=
  forall p ml sp, siMols s !! p = Some ml -> siSpecies s !! moSpecies ml = Some sp ->
    let f := before (fun s => gtN (sel s)) (siSpecies s) (moSpecies ml) + moId ml * Z.to_nat (gtN (sel sp)) in
    gsMol gs !! p = Some (f, Z.to_nat (gtN (sel sp))) /\
    forall b g, gtGroups (sel sp) !! b = Some g ->
      gsArr gs !! (f + b) = Some (Grp (map (fun a => (Z.of_nat (moFirst ml) + a)%Z) (sgAtoms g)) (sgType g)).
(** Some bond of some molecule joins atoms x and y. *)
Definition joined (s : sim) (x y : nat) : Prop :=
  exists p f n b g, gsMol (siBonds s) !! p = Some (f, n) /\ b < n /\ gsArr (siBonds s) !! (f + b) = Some g /\
    (grAtoms g = [Z.of_nat x; Z.of_nat y] \/ grAtoms g = [Z.of_nat y; Z.of_nat x]).
Definition masks_ok (s : sim) (bonded : bool) : Prop :=
  forall x at', siAtoms s !! x = Some at' ->
    NoDup (atMask at') /\ forall y, y ∈ atMask at' <-> (bonded = true /\ joined s x y).
