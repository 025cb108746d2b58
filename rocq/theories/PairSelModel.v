(** Model of McMd::PairSelector, of the pair energies of McPairEnergyAverage and McPairEnergyAnalyzer, and of the samples of RDF.  Atoms are their
    ids, which also stand for their addresses.  Left out: files, the histogram of RadialDistribution and the averages (util): the accumulators are
    the lists of their samples. *)
From Verif Require Import Base Vec3 SpeciesModel CellListModel PairListModel EnergyModel.
From Coq Require Import Reals.
Local Open Scope R_scope.

(** PairSelector::PairType, mcMd/analyzers/util/PairSelector.h:44. *)
Inductive ptype := INTRA | INTER | ALL.
(** Members of PairSelector, PairSelector.h:90-100. *)
Record selector := Sel { slType : ptype; slT1 : Z; slT2 : Z; slAvoid : bool }.

Section Select.
  (** The molecule and type of every atom. *)
  Variables (molOf : nat -> nat) (ty : nat -> Z).
  (** PairSelector::match, PairSelector.cpp:36-78. *)
  Definition sel_match (s : selector) (i j : nat) : bool :=
    if match slType s with INTRA => negb (Nat.eqb (molOf i) (molOf j)) | INTER => Nat.eqb (molOf i) (molOf j) | ALL => false end then false
    else if Nat.eqb i j then false
    else if (Z.leb 0 (slT1 s) && negb (Z.eqb (ty i) (slT1 s)))%bool then false
    else if (Z.leb 0 (slT2 s) && negb (Z.eqb (ty j) (slT2 s)))%bool then false
    else if slAvoid s then
      if (Z.ltb (slT1 s) 0 && Z.ltb (slT2 s) 0)%bool then negb (Nat.ltb j i)
      else if Z.eqb (ty i) (ty j) then negb (Nat.ltb j i) else true
    else true.
End Select.

(** The loops of McPairEnergyAverage::sample, McPairEnergyAverage.cpp:106-141, and McPairEnergyAnalyzer::compute,
    McPairEnergyAnalyzer.cpp:76-111: the value sampled. *)
Definition sel_energy (M : nat) (dist2 : vec3 R -> vec3 R -> R) (masked : nat -> nat -> bool) (u : R -> Z -> Z -> R) (molOf : nat -> nat)
    (sel : selector) (s : mcs) : outcome R :=
  foldM (fun e ic =>
    let? (nb, nIn) := cell_neighbors M (sCells s) ic in
    foldM (fun e ip => let? i := aget nb ip in
      Ok (fold_left (fun e j => if sel_match molOf (sTy s) sel i j then if masked i j then e else e + pair_u dist2 u s i j else e) nb e))
      e (seq 0 nIn)) 0 (seqZ 0 (clTot (sCells s))).

(** The samples of accumulator_ by snapshot, and normSum_, RDF.h:104-118. *)
Record rdf := Rdf { rdSnaps : list (list R); rdNorm : R }.
(** A snapshot: positions, molecules and types of the atoms, and the volume, RDF.cpp:112-175. *)
Record snapshot := Snap { snAtoms : list nat; snPos : nat -> vec3 R; snMol : nat -> nat; snTy : nat -> Z; snDist2 : vec3 R -> vec3 R -> R; snVol : R }.
(** The constructor, RDF.cpp:29-41. *)
Definition rdf_new : rdf := Rdf [] 0.
(** RDF::setup, RDF.cpp:99-105: normSum_ stays. *)
Definition rdf_setup (d : rdf) : rdf := Rdf [] (rdNorm d).
(** The loops over pairs of atoms, RDF.cpp:129-168. *)
Definition rdf_pairs (sel : selector) (x : snapshot) : list R :=
  fold_left (fun l i => fold_left (fun l j => if sel_match (snMol x) (snTy x) sel i j then l ++ [sqrt (snDist2 x (snPos x i) (snPos x j))] else l) (snAtoms x) l) (snAtoms x) [].
(** typeNumbers_[t] for a type t, RDF.cpp:121-123 and 136. *)
Definition type_number (x : snapshot) (t : nat) : R := fold_left (fun k i => if Z.eqb (snTy x i) (Z.of_nat t) then k + 1 else k) (snAtoms x) 0.
(** RDF::sample, RDF.cpp:107-178; [nt] is nAtomType_. *)
Definition rdf_sample (nt : nat) (sel : selector) (d : rdf) (x : snapshot) : rdf :=
  let number := fold_left (fun k t => k + type_number x t) (seq 0 nt) 0 in
  Rdf (rdSnaps d ++ [rdf_pairs sel x]) (rdNorm d + number * number / snVol x).
(** normSum_ / nSnapshot of RDF::output, RDF.cpp:193-194. *)
Definition rdf_norm (d : rdf) : R := rdNorm d / INR (length (rdSnaps d)).
