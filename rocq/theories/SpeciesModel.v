(** Model of Simp::Species and its subclasses (src/simp/species, src/mcMd/species/HomopolymerSG),
    compiled with SIMP_BOND, SIMP_ANGLE and SIMP_DIHEDRAL.
    A DArray is a list, [[]] when it is not allocated.  Integers are unbounded. *)
From Verif Require Import Base.
From stdpp Require Export list_numbers.
Local Open Scope Z_scope.

(** Indexing of a C array with an int.  Used for the arrays of Species.cpp and of its subclasses. *)
Definition zget {A} (l : list A) (i : Z) : outcome A :=
  if decide (0 <= i) then aget l (Z.to_nat i) else UB.
(** Used for the arrays of Species.cpp and of its subclasses. *)
Definition zset {A} (l : list A) (i : Z) (a : A) : outcome (list A) :=
  if decide (0 <= i) then aset l (Z.to_nat i) a else UB.
(** UTIL_CHECK, and if (!b) UTIL_THROW.  util/global.h, documented. *)
Definition check (b : bool) : outcome () := if b then Ok () else Throw.
(** A for loop over [l] with a loop-carried state.  E.g. Linear.cpp:74-100. *)
Fixpoint foldM {A S} (f : S -> A -> outcome S) (s : S) (l : list A) : outcome S :=
  match l with [] => Ok s | x :: l' => let? s' := f s x in foldM f s' l' end.
(** A loop that only tests, e.g. Species.cpp:659-800. *)
Fixpoint forM {A} (l : list A) (f : A -> outcome ()) : outcome () :=
  match l with [] => Ok () | x :: l' => let? _ := f x in forM l' f end.

(** SpeciesGroup.h:127-130, constructor 155-162. *)
Record sgroup := SG { sgAtoms : list Z; sgType : Z }.
(** SpeciesGroup.h:155-162. *)
Definition sg_new (k : nat) : sgroup := SG (replicate k (-1)) (-1).

(** The members for one kind of group: n (Species.h:354, 369, 384), groups (362, 377, 393) and
    per-atom lists (559, 570, 581).  Bonds, angles and dihedrals are three copies of the same code
    for 2, 3 and 4 atoms; they are modelled once, with the number of atoms [k] and the capacity [M]
    of the per-atom FSArray as parameters. *)
Record gtab := GT { gtN : Z; gtGroups : list sgroup; gtIds : list (list Z) }.
(** Constructor of Species, Species.cpp:22-42. *)
Definition gt_new : gtab := GT 0 [] [].

(** Species.h:332-393. *)
Record species := SP {
  spId : Z; spCap : Z; spNAtom : Z; spTypes : list Z;
  spBond : gtab; spAngle : gtab; spDihedral : gtab
}.

(** allocateAtoms, Species.cpp:497-508. *)
Definition alloc_atoms (nAtom : Z) (types : list Z) : outcome (list Z) :=
  let? _ := check (bool_decide (0 < nAtom)) in
  let? _ := check (match types with [] => true | _ => false end) in
  Ok (replicate (Z.to_nat nAtom) (-1)).
(** allocateBonds, allocateAngles, allocateDihedrals: Species.cpp:520-531, 563-574, 609-621. *)
Definition alloc_groups (k : nat) (nAtom n : Z) (g : gtab) : outcome gtab :=
  let? _ := check (bool_decide (0 < nAtom)) in
  let? _ := check (bool_decide (0 <= n)) in
  let? _ := check (match gtIds g with [] => true | _ => false end) in
  if decide (0 < n) then
    let? _ := check (match gtGroups g with [] => true | _ => false end) in
    Ok (GT n (replicate (Z.to_nat n) (sg_new k)) (replicate (Z.to_nat nAtom) []))
  else Ok (GT n (gtGroups g) (replicate (Z.to_nat nAtom) [])).
(** FSArray::append (util, documented): throws when full. *)
Definition ids_append (M : nat) (ids : list (list Z)) (a b : Z) : outcome (list (list Z)) :=
  let? l := zget ids a in
  if decide (length l = M) then Throw else zset ids a (l ++ [b]).
(** makeBond, makeAngle, makeDihedral: Species.cpp:536-556, 579-602, 626-653. *)
Definition make_group (M : nat) (g : gtab) (b : Z) (atoms : list Z) (ty : Z) : outcome gtab :=
  let? gs := zset (gtGroups g) b (SG atoms ty) in
  let? ids := foldM (fun ids a => ids_append M ids a b) (gtIds g) atoms in
  Ok (GT (gtN g) gs ids).

(** initializeAtomGroupIdArrays, one kind of group: Species.cpp:233-252, 254-276, 278-303. *)
Definition init_ids (M : nat) (nAtom : Z) (g : gtab) : outcome gtab :=
  let? _ := check (bool_decide (0 <= gtN g)) in
  if decide (0 < gtN g) then
    let? _ := check (bool_decide (Z.of_nat (length (gtGroups g)) = gtN g)) in
    let? _ := check (bool_decide (Z.of_nat (length (gtIds g)) = nAtom)) in
    let? _ := check (forallb (fun l => match l with [] => true | _ => false end) (gtIds g)) in
    let? ids := foldM (fun ids b =>
        let? gr := zget (gtGroups g) b in
        let? _ := check (forallb (fun a => bool_decide (0 <= a < nAtom)) (sgAtoms gr)) in
        foldM (fun ids a => ids_append M ids a b) ids (sgAtoms gr)) (gtIds g) (seqZ 0 (gtN g)) in
    Ok (GT (gtN g) (gtGroups g) ids)
  else Ok g.

(** isValid, one kind of group: Species.cpp:675-747, 750-817, 820-888. *)
Definition group_valid (k : nat) (nAtom : Z) (g : gtab) : outcome () :=
  if decide (0 < gtN g) then
    let? _ := check (bool_decide (Z.of_nat (length (gtGroups g)) = gtN g)) in
    let? _ := check (bool_decide (Z.of_nat (length (gtIds g)) = nAtom)) in
    let? _ := forM (seqZ 0 (gtN g)) (fun b =>
        let? gr := zget (gtGroups g) b in
        forM (seq 0 k) (fun p =>
          let? a := aget (sgAtoms gr) p in
          let? _ := check (bool_decide (0 <= a < nAtom)) in
          let? _ := forM (seq (S p) (k - S p)) (fun q =>
            let? a2 := aget (sgAtoms gr) q in check (bool_decide (a2 <> a))) in
          let? l := zget (gtIds g) a in
          check (bool_decide (b ∈ l)))) in
    let? count := foldM (fun c a =>
        let? l := zget (gtIds g) a in
        foldM (fun c b =>
          let? _ := check (bool_decide (0 <= b < gtN g)) in
          let? gr := zget (gtGroups g) b in
          let? _ := check (bool_decide (a ∈ sgAtoms gr)) in
          Ok (c + 1)) c l) 0 (seqZ 0 nAtom) in
    check (bool_decide (count = Z.of_nat k * gtN g))
  else Ok ().
(** isValid: Species.cpp:659-900; [mut] is isMutable().  The checks on an unallocated species reduce
    to moleculeCapacity_ == 0. *)
Definition is_valid (mut : bool) (s : species) : outcome () :=
  match spTypes s with
  | [] => check (bool_decide (spCap s = 0))
  | ts =>
      let? _ := check (bool_decide (Z.of_nat (length ts) = spNAtom s)) in
      let? _ := check (mut || forallb (fun t => bool_decide (0 <= t)) ts) in
      let? _ := group_valid 2 (spNAtom s) (spBond s) in
      let? _ := group_valid 3 (spNAtom s) (spAngle s) in
      group_valid 4 (spNAtom s) (spDihedral s)
  end.

(** Linear::buildLinear, Linear.cpp:39-102, on a newly constructed species; [tA] etc. are the virtual
    functions calculateAtomTypeId etc. *)
Definition build_linear (cap nAtom nBond nAngle nDihedral hasA hasD : Z) (tA tB tG tD : Z -> Z) : outcome species :=
  let? _ := check (bool_decide (2 <= nAtom)) in
  let? _ := check (bool_decide (nBond = nAtom - 1)) in
  let? _ := check (bool_decide (hasA = 0) || bool_decide (nAngle = nAtom - 2)) in
  let? _ := check (bool_decide (hasD = 0) ||
                   (if decide (3 < nAtom) then bool_decide (nDihedral = nAtom - 3) else bool_decide (nDihedral = 0))) in
  let? ts := alloc_atoms nAtom [] in
  let? gb := alloc_groups 2 nAtom nBond gt_new in
  let? ga := alloc_groups 3 nAtom nAngle gt_new in
  let? gd := alloc_groups 4 nAtom nDihedral gt_new in
  let? ts := foldM (fun ts i => zset ts i (tA i)) ts (seqZ 0 nAtom) in
  let? gb := foldM (fun g i => make_group 4 g i [i; i + 1] (tB i)) gb (seqZ 0 nBond) in
  let? ga := if decide (hasA = 0) then Ok ga else
             foldM (fun g i => make_group 18 g i [i; i + 1; i + 2] (tG i)) ga (seqZ 0 nAngle) in
  let? gd := if decide (hasD = 0) then Ok gd else
             foldM (fun g i => make_group 72 g i [i; i + 1; i + 2; i + 3] (tD i)) gd (seqZ 0 nDihedral) in
  Ok (SP (-1) cap nAtom ts gb ga gd).

(** Ring::buildRing, Ring.cpp:31-77. *)
Definition build_ring (cap nAtom nBond nAngle nDihedral : Z) (tA tB tG tD : Z -> Z) : outcome species :=
  let? _ := check (bool_decide (3 <= nAtom)) in
  let? _ := check (bool_decide (nBond = nAtom)) in
  let? _ := check (bool_decide (nAngle = nAtom)) in
  let? _ := check (bool_decide (nDihedral = nAtom)) in
  let? ts := alloc_atoms nAtom [] in
  let? gb := alloc_groups 2 nAtom nBond gt_new in
  let? ga := alloc_groups 3 nAtom nAngle gt_new in
  let? gd := alloc_groups 4 nAtom nDihedral gt_new in
  let? ts := foldM (fun ts i => zset ts i (tA i)) ts (seqZ 0 nAtom) in
  let? gb := foldM (fun g i => make_group 4 g i [i; (i + 1) mod nAtom] (tB i)) gb (seqZ 0 nBond) in
  let? ga := foldM (fun g i => make_group 18 g i [i; (i + 1) mod nAtom; (i + 2) mod nAtom] (tG i)) ga (seqZ 0 nAngle) in
  let? gd := foldM (fun g i => make_group 72 g i [i; (i + 1) mod nAtom; (i + 2) mod nAtom; (i + 3) mod nAtom] (tD i))
                   gd (seqZ 0 nDihedral) in
  Ok (SP (-1) cap nAtom ts gb ga gd).

(** Archives: a sequence of ints and doubles (doubles as bit patterns). Reading past the end or at the
    wrong type is undefined.  Serializable::IArchive and OArchive (util, documented). *)
Inductive aword := AI (z : Z) | AD (bits : Z).
(** util, documented. *)
Definition rdI (a : list aword) : outcome (Z * list aword) := match a with AI z :: r => Ok (z, r) | _ => UB end.
(** util, documented. *)
Definition rdD (a : list aword) : outcome (Z * list aword) := match a with AD z :: r => Ok (z, r) | _ => UB end.
(** Parameter::saveOptional (util, documented): the flag, then the value if the flag is set. *)
Definition wOpt (v : Z) (active : bool) : list aword := if active then [AI 1; AI v] else [AI 0].
(** loadParameter(ar, label, v, false) (util, documented): [old] is kept if the flag is not set. *)
Definition rdOpt (old : Z) (a : list aword) : outcome (Z * list aword) :=
  let? (f, a) := rdI a in if decide (f = 0) then Ok (old, a) else rdI a.
(** loadCArray (util, documented). *)
Fixpoint rdIs (n : nat) (a : list aword) : outcome (list Z * list aword) :=
  match n with
  | O => Ok ([], a)
  | S n => let? (z, a) := rdI a in let? (l, a) := rdIs n a in Ok (z :: l, a)
  end.
(** DArray<int>::serialize (util, documented), saving and loading into an array already allocated with
    capacity [n]: a different capacity throws. *)
Definition wArr (l : list Z) : list aword := AI (Z.of_nat (length l)) :: map AI l.
(** util, documented. *)
Definition rdArr (n : nat) (a : list aword) : outcome (list Z * list aword) :=
  let? (c, a) := rdI a in let? _ := check (bool_decide (c = Z.of_nat n)) in rdIs n a.

(** Optional angles and dihedrals as found in a parameter file: the value of hasAngles if present,
    and of angleType.  Homopolymer.cpp:40-66. *)
Record opt_groups := OG { ogHasA : option Z; ogTypeA : Z; ogHasD : option Z; ogTypeD : Z }.

(** Members of Linear and of its subclasses that describe angles and dihedrals: hasAngles_, nAngle_,
    angleType_, hasDihedrals_, nDihedral_, dihedralType_.  Linear.h:57-64, Homopolymer.h:73-80. *)
Record adinfo := AD' { hasA : Z; nA : Z; typeA : Z; hasD : Z; nD : Z; typeD : Z }.
(** Homopolymer.cpp:40-66, Diblock.cpp:52-78, Multiblock.cpp:68-94. *)
Definition read_ad (nAtom : Z) (o : opt_groups) : outcome adinfo :=
  let ha := default 0 (ogHasA o) in
  let? (na, ta) := (if decide (ha = 0) then Ok (0, -1) else
                    let? _ := check (bool_decide (3 <= nAtom)) in Ok (nAtom - 2, ogTypeA o)) in
  let hd := default 0 (ogHasD o) in
  let? (nd, td) := (if decide (hd = 0) then Ok (0, -1) else
                    let? _ := check (bool_decide (4 <= nAtom)) in Ok (nAtom - 3, ogTypeD o)) in
  Ok (AD' ha na ta hd nd td).
(** Homopolymer.cpp:121-132 ([act v] is the flag passed to saveOptional: hasAngles_ itself, converted
    to bool), Diblock.cpp:138-149, Multiblock.cpp:176-187 (flag always true). *)
Definition save_ad (act : Z -> bool) (d : adinfo) : list aword :=
  wOpt (hasA d) (act (hasA d)) ++
  (if decide (hasA d <> 0 /\ 0 < nA d) then [AI (typeA d)] else []) ++
  wOpt (hasD d) (act (hasD d)) ++
  (if decide (hasD d <> 0 /\ 0 < nD d) then [AI (typeD d)] else []).
(** Homopolymer.cpp:80-107 and HomopolymerSG.cpp:108-136. *)
Definition load_ad_hp (nAtom : Z) (a : list aword) : outcome (adinfo * list aword) :=
  let? (ha, a) := rdOpt 0 a in
  let? (na, ta, a) := (if decide (ha = 0) then Ok (0, -1, a) else
                       let n := nAtom - 1 - 1 in
                       if decide (0 < n) then let? (t, a) := rdI a in Ok (n, t, a) else Ok (n, -1, a)) in
  let? (hd, a) := rdOpt 0 a in
  let? (nd, td, a) := (if decide (hd = 0) then Ok (0, -1, a) else
                       let n := if decide (3 < nAtom) then nAtom - 3 else 0 in
                       if decide (0 < n) then let? (t, a) := rdI a in Ok (n, t, a) else Ok (n, -1, a)) in
  Ok (AD' ha na ta hd nd td, a).
(** Diblock.cpp:99-124, Multiblock.cpp:135-161. *)
Definition load_ad_db (nAtom : Z) (a : list aword) : outcome (adinfo * list aword) :=
  let? (ha, a) := rdOpt 0 a in
  let? (na, ta, a) := (if decide (ha = 0) then Ok (0, -1, a) else
                       let? _ := check (bool_decide (3 <= nAtom)) in
                       let? (t, a) := rdI a in Ok (nAtom - 2, t, a)) in
  let? (hd, a) := rdOpt 0 a in
  let? (nd, td, a) := (if decide (hd = 0) then Ok (0, -1, a) else
                       let? _ := check (bool_decide (4 <= nAtom)) in
                       let? (t, a) := rdI a in Ok (nAtom - 3, t, a)) in
  Ok (AD' ha na ta hd nd td, a).

(** Homopolymer.h members. *)
Record homopolymer := HP { hpSp : species; hpAtomType : Z; hpBondType : Z; hpAd : adinfo }.
(** The common end of Homopolymer.cpp:33-110. *)
Definition hp_build (cap nAtom at_ bt : Z) (d : adinfo) : outcome homopolymer :=
  let? s := build_linear cap nAtom (nAtom - 1) (nA d) (nD d) (hasA d) (hasD d)
              (fun _ => at_) (fun _ => bt) (fun _ => typeA d) (fun _ => typeD d) in
  let? _ := is_valid false s in
  Ok (HP s at_ bt d).
(** Species::readParameters (Species.cpp:51-60) with Homopolymer::readSpeciesParam (Homopolymer.cpp:33-69). *)
Definition hp_read (cap nAtom at_ bt : Z) (o : opt_groups) : outcome homopolymer :=
  let? d := read_ad nAtom o in hp_build cap nAtom at_ bt d.
(** Homopolymer.cpp:115-133. *)
Definition hp_save (h : homopolymer) : list aword :=
  [AI (spCap (hpSp h)); AI (spNAtom (hpSp h)); AI (hpAtomType h); AI (hpBondType h)] ++
  save_ad (fun v => negb (bool_decide (v = 0))) (hpAd h).
(** Species::loadParameters (Species.cpp:65-74) with Homopolymer.cpp:74-110. *)
Definition hp_load (a : list aword) : outcome (homopolymer * list aword) :=
  let? (cap, a) := rdI a in
  let? (nAtom, a) := rdI a in
  let? (at_, a) := rdI a in
  let? (bt, a) := rdI a in
  let? (d, a) := load_ad_hp nAtom a in
  let? h := hp_build cap nAtom at_ bt d in
  Ok (h, a).

(** Diblock.h members. *)
Record diblock := DB { dbSp : species; dbLen : Z * Z; dbTypes : Z * Z; dbBondType : Z; dbAd : adinfo }.
(** Diblock.cpp:155-162. *)
Definition db_atomType (len types : Z * Z) (i : Z) : Z := if decide (i < fst len) then fst types else snd types.
(** The common end of Diblock.cpp:38-127. *)
Definition db_build (cap : Z) (len types : Z * Z) (bt : Z) (d : adinfo) : outcome diblock :=
  let nAtom := fst len + snd len in
  let? s := build_linear cap nAtom (nAtom - 1) (nA d) (nD d) (hasA d) (hasD d)
              (db_atomType len types) (fun _ => bt) (fun _ => typeA d) (fun _ => typeD d) in
  let? _ := is_valid false s in
  Ok (DB s len types bt d).
(** Diblock.cpp:38-81. *)
Definition db_read (cap : Z) (len types : Z * Z) (bt : Z) (o : opt_groups) : outcome diblock :=
  let? _ := check (bool_decide (1 <= fst len) && bool_decide (1 <= snd len)) in
  let? d := read_ad (fst len + snd len) o in db_build cap len types bt d.
(** Diblock.cpp:132-150; OArchive::pack writes the elements only. *)
Definition db_save (h : diblock) : list aword :=
  [AI (spCap (dbSp h)); AI (fst (dbLen h)); AI (snd (dbLen h)); AI (fst (dbTypes h)); AI (snd (dbTypes h));
   AI (dbBondType h)] ++ save_ad (fun _ => true) (dbAd h).
(** Diblock.cpp:86-127. *)
Definition db_load (a : list aword) : outcome (diblock * list aword) :=
  let? (cap, a) := rdI a in
  let? (l0, a) := rdI a in let? (l1, a) := rdI a in
  let? _ := check (bool_decide (1 <= l0) && bool_decide (1 <= l1)) in
  let? (t0, a) := rdI a in let? (t1, a) := rdI a in
  let? (bt, a) := rdI a in
  let? (d, a) := load_ad_db (l0 + l1) a in
  let? h := db_build cap (l0, l1) (t0, t1) bt d in
  Ok (h, a).

(** Multiblock.h members. *)
Record multiblock := MB { mbSp : species; mbN : Z; mbLen : list Z; mbTypes : list Z; mbBegin : list Z; mbBondType : Z; mbAd : adinfo }.
(** Multiblock.cpp:52-59. *)
Fixpoint begins (b : Z) (len : list Z) : list Z := match len with [] => [] | n :: l => b :: begins (b + n) l end.
(** Multiblock.cpp:193-205. *)
Fixpoint mb_scan (ty : Z) (begin types : list Z) (i : Z) : Z :=
  match begin, types with
  | b :: begin, t :: types => if decide (b <= i) then mb_scan t begin types i else ty
  | _, _ => ty
  end.
(** The common end of Multiblock.cpp:35-164. *)
Definition mb_build (cap n : Z) (len types : list Z) (bt : Z) (d : adinfo) : outcome multiblock :=
  let nAtom := fold_left Z.add len 0 in
  let? s := build_linear cap nAtom (nAtom - 1) (nA d) (nD d) (hasA d) (hasD d)
              (mb_scan (-1) (begins 0 len) types) (fun _ => bt) (fun _ => typeA d) (fun _ => typeD d) in
  let? _ := is_valid false s in
  Ok (MB s n len types (begins 0 len) bt d).
(** Multiblock.cpp:35-97; [len] and [types] are the nBlock values in the file. *)
Definition mb_read (cap n : Z) (len types : list Z) (bt : Z) (o : opt_groups) : outcome multiblock :=
  let? _ := check (bool_decide (0 < n) && bool_decide (Z.of_nat (length len) = n) && bool_decide (Z.of_nat (length types) = n)) in
  let? _ := check (forallb (fun x => bool_decide (1 <= x)) len) in
  let? _ := check (forallb (fun x => bool_decide (0 <= x)) types) in
  let? d := read_ad (fold_left Z.add len 0) o in mb_build cap n len types bt d.
(** Multiblock.cpp:169-188. *)
Definition mb_save (h : multiblock) : list aword :=
  [AI (spCap (mbSp h))] ++ wArr (mbLen h) ++ wArr (mbTypes h) ++ wArr (mbBegin h) ++ [AI (mbBondType h)] ++
  save_ad (fun _ => true) (mbAd h).
(** Multiblock.cpp:102-164. *)
Definition mb_load (a : list aword) : outcome (multiblock * list aword) :=
  let? (cap, a) := rdI a in
  let? (n, a) := rdI a in
  let? _ := check (bool_decide (0 < n)) in
  let? (len, a) := rdArr (Z.to_nat n) a in
  let? _ := check (forallb (fun x => bool_decide (1 <= x)) len) in
  let? (types, a) := rdArr (Z.to_nat n) a in
  let? _ := check (forallb (fun x => bool_decide (0 <= x)) types) in
  let? (bt, a) := rdI a in
  let? (d, a) := load_ad_db (fold_left Z.add len 0) a in
  let? h := mb_build cap n len types bt d in
  Ok (h, a).

(** HomoRing.h members. *)
Record homoring := HR { hrSp : species; hrType : Z }.
(** The common end of HomoRing.cpp:26-55. *)
Definition hr_build (id cap nAtom ty : Z) : outcome homoring :=
  let? s := build_ring cap nAtom nAtom nAtom nAtom (fun _ => ty) (fun _ => 0) (fun _ => 0) (fun _ => 0) in
  let? _ := is_valid false s in
  Ok (HR (SP id cap (spNAtom s) (spTypes s) (spBond s) (spAngle s) (spDihedral s)) ty).
(** HomoRing.cpp:26-38; [id] is set beforehand by the manager (Simulation or SpeciesManager). *)
Definition hr_read (id cap nAtom ty : Z) : outcome homoring := hr_build id cap nAtom ty.
(** HomoRing.cpp:60-66. *)
Definition hr_save (h : homoring) : list aword :=
  [AI (spId (hrSp h)); AI (spCap (hrSp h)); AI (spNAtom (hrSp h)); AI (hrType h)].
(** Species.cpp:65-74 with HomoRing.cpp:43-55. *)
Definition hr_load (id : Z) (a : list aword) : outcome (homoring * list aword) :=
  let? (cap, a) := rdI a in let? (nAtom, a) := rdI a in let? (ty, a) := rdI a in
  let? h := hr_build id cap nAtom ty in Ok (h, a).

(** Point.h, Point.cpp:18-53. *)
Record point := PT { ptSp : species; ptType : Z }.
(** Point.cpp:29-34. *)
Definition pt_build (cap ty : Z) : outcome point :=
  let? ts := alloc_atoms 1 [] in
  let? gb := alloc_groups 2 1 0 gt_new in
  let? ga := alloc_groups 3 1 0 gt_new in
  let? gd := alloc_groups 4 1 0 gt_new in
  let? ts := zset ts 0 ty in
  let s := SP (-1) cap 1 ts gb ga gd in
  let? _ := is_valid false s in
  Ok (PT s ty).
(** Point.cpp:29-34. *)
Definition pt_read := pt_build.
(** Point.cpp:49-53. *)
Definition pt_save (p : point) : list aword := [AI (spCap (ptSp p)); AI (ptType p)].
(** Point.cpp:39-44. *)
Definition pt_load (a : list aword) : outcome (point * list aword) :=
  let? (cap, a) := rdI a in let? (ty, a) := rdI a in let? p := pt_build cap ty in Ok (p, a).

(** HomopolymerSG.h:117-137; the mutator's arrays are in MutatorModel.v. *)
Record homopolymerSG := HG { hgSp : species; hgBondType : Z; hgAd : adinfo; hgTypeIds : Z * Z; hgRatio : Z }.
(** The common end of HomopolymerSG.cpp:54-149. *)
Definition hg_build (cap nAtom bt : Z) (d : adinfo) (tys : Z * Z) (ratio : Z) : outcome homopolymerSG :=
  let? s := build_linear cap nAtom (nAtom - 1) (nA d) (nD d) (hasA d) (hasD d)
              (fun _ => -1) (fun _ => bt) (fun _ => typeA d) (fun _ => typeD d) in
  let? _ := is_valid true s in
  Ok (HG s bt d tys ratio).
(** HomopolymerSG.cpp:54-97: line 74 clears hasAngles_ (not hasDihedrals_) and line 82 reads angleType_
    (not dihedralType_). *)
Definition hg_read_ad (nAtom : Z) (o : opt_groups) : outcome adinfo :=
  let ha := default 0 (ogHasA o) in
  let? (na, ta) := (if decide (ha = 0) then Ok (0, -1) else
                    let? _ := check (bool_decide (3 <= nAtom)) in Ok (nAtom - 2, ogTypeA o)) in
  let ha := 0 in
  let hd := default 0 (ogHasD o) in
  let? (nd, ta) := (if decide (hd = 0) then Ok (0, ta) else
                    let? _ := check (bool_decide (4 <= nAtom)) in Ok (nAtom - 3, ogTypeD o)) in
  Ok (AD' ha na ta hd nd (-1)).
(** HomopolymerSG.cpp:54-97. *)
Definition hg_read (cap nAtom bt : Z) (o : opt_groups) (tys : Z * Z) (ratio : Z) : outcome homopolymerSG :=
  let? d := hg_read_ad nAtom o in hg_build cap nAtom bt d tys ratio.
(** HomopolymerSG.cpp:154-173. *)
Definition hg_save (h : homopolymerSG) : list aword :=
  [AI (spCap (hgSp h)); AI (spNAtom (hgSp h)); AI (hgBondType h)] ++
  save_ad (fun v => negb (bool_decide (v = 0))) (hgAd h) ++
  [AI (fst (hgTypeIds h)); AI (snd (hgTypeIds h)); AD (hgRatio h)].
(** HomopolymerSG.cpp:102-149. *)
Definition hg_load (a : list aword) : outcome (homopolymerSG * list aword) :=
  let? (cap, a) := rdI a in
  let? (nAtom, a) := rdI a in
  let? (bt, a) := rdI a in
  let? (d, a) := load_ad_hp nAtom a in
  let? (t0, a) := rdI a in let? (t1, a) := rdI a in
  let? (r, a) := rdD a in
  let? h := hg_build cap nAtom bt d (t0, t1) r in
  Ok (h, a).

(** A general species: Species::readSpeciesParam, Species.cpp:79-115.  Group counts are optional. *)
Definition sp_groups (k M : nat) (nAtom n : Z) (gs : list sgroup) : outcome gtab :=
  let? g := alloc_groups k nAtom n gt_new in
  let? _ := check (bool_decide (Z.of_nat (length gs) = n)) in
  if decide (0 < n) then Ok (GT n gs (gtIds g)) else Ok g.
(** The common end of Species.cpp:79-155. *)
Definition sp_build (cap nAtom : Z) (types : list Z) (nb : Z) (bs : list sgroup) (na : Z) (as_ : list sgroup)
  (nd : Z) (ds : list sgroup) : outcome species :=
  let? _ := alloc_atoms nAtom [] in
  let? _ := check (bool_decide (Z.of_nat (length types) = nAtom)) in
  let? gb := sp_groups 2 4 nAtom nb bs in
  let? ga := sp_groups 3 18 nAtom na as_ in
  let? gd := sp_groups 4 72 nAtom nd ds in
  let? gb := init_ids 4 nAtom gb in
  let? ga := init_ids 18 nAtom ga in
  let? gd := init_ids 72 nAtom gd in
  let s := SP (-1) cap nAtom types gb ga gd in
  let? _ := is_valid false s in
  Ok s.
(** Species.cpp:310-333 and SpeciesGroup.h:226-251. *)
Definition wGroup (g : sgroup) : list aword := map AI (sgAtoms g) ++ [AI (sgType g)].
(** Species.cpp:316-332. *)
Definition wGroups (g : gtab) : list aword :=
  AI (gtN g) :: (if decide (0 < gtN g) then AI (Z.of_nat (length (gtGroups g))) :: concat (map wGroup (gtGroups g)) else []).
(** Species.cpp:310-333. *)
Definition sp_save (s : species) : list aword :=
  [AI (spCap s); AI (spNAtom s)] ++ wArr (spTypes s) ++ wGroups (spBond s) ++ wGroups (spAngle s) ++ wGroups (spDihedral s).
(** SpeciesGroup.h:226-251, loading. *)
Definition rdGroup (k : nat) (a : list aword) : outcome (sgroup * list aword) :=
  let? (l, a) := rdIs k a in let? (t, a) := rdI a in Ok (SG l t, a).
(** Species.cpp:121-155. *)
Fixpoint rdGroupN (k n : nat) (a : list aword) : outcome (list sgroup * list aword) :=
  match n with
  | O => Ok ([], a)
  | S n => let? (g, a) := rdGroup k a in let? (l, a) := rdGroupN k n a in Ok (g :: l, a)
  end.
(** Species.cpp:121-155. *)
Definition rdGroups (k : nat) (a : list aword) : outcome (Z * list sgroup * list aword) :=
  let? (n, a) := rdI a in
  let? _ := check (bool_decide (0 <= n)) in
  if decide (0 < n) then
    let? (c, a) := rdI a in
    let? _ := check (bool_decide (c = n)) in
    let? (l, a) := rdGroupN k (Z.to_nat n) a in Ok (n, l, a)
  else Ok (n, [], a).
(** Species.cpp:65-74, 120-155. *)
Definition sp_load (a : list aword) : outcome (species * list aword) :=
  let? (cap, a) := rdI a in
  let? (nAtom, a) := rdI a in
  let? _ := check (bool_decide (0 < nAtom)) in
  let? (types, a) := rdArr (Z.to_nat nAtom) a in
  let? (nb, bs, a) := rdGroups 2 a in
  let? (na, as_, a) := rdGroups 3 a in
  let? (nd, ds, a) := rdGroups 4 a in
  let? s := sp_build cap nAtom types nb bs na as_ nd ds in
  Ok (s, a).

(** Text form of a structure: labels and integers.  Labels read in Species.cpp:160-222. *)
Inductive slabel := LAtom | LBond | LAngle | LDihedral.
Global Instance slabel_eq_dec : EqDecision slabel. Proof. solve_decision. Defined.
(** Species.cpp:160-222, 338-380. *)
Inductive stok := TL (l : slabel) | TI (z : Z) | TOther.
(** Species.cpp:338-380. *)
Definition w_lines (gs : list sgroup) : list stok :=
  concat (imap (fun i g => TI (Z.of_nat i) :: map TI (sgAtoms g) ++ [TI (sgType g)]) gs).
(** Species.cpp:350-378. *)
Definition w_section (lab : slabel) (g : gtab) : list stok :=
  if decide (0 < gtN g) then TL lab :: TI (gtN g) :: w_lines (gtGroups g) else [].
(** Species.cpp:338-380. *)
Definition write_structure (s : species) : list stok :=
  TL LAtom :: TI (spNAtom s) :: concat (imap (fun i t => [TI (Z.of_nat i); TI t]) (spTypes s)) ++
  w_section LBond (spBond s) ++ w_section LAngle (spAngle s) ++ w_section LDihedral (spDihedral s).

(** in >> int.  A token that is not an integer makes the stream fail: the value is then 0 and later
    reads fail too (a variable not initialised before would hold an unspecified value instead).  Used in Species.cpp:385-440. *)
Definition sread (ts : list stok) : Z * list stok := match ts with TI z :: r => (z, r) | _ => (0, ts) end.
(** Used in Species.cpp:385-440. *)
Fixpoint sreads (n : nat) (ts : list stok) : list Z * list stok :=
  match n with O => ([], ts) | S n => let '(z, ts) := sread ts in let '(l, ts) := sreads n ts in (z :: l, ts) end.
(** Label(l, false).match(in): a token that does not match is kept for the next Label (util, documented). *)
Definition smatch (l : slabel) (ts : list stok) : bool * list stok :=
  match ts with TL l' :: r => if decide (l' = l) then (true, r) else (false, ts) | _ => (false, ts) end.

(** One section of matchStructure, Species.cpp:400-440.  [cmp p b] is the atom id that the p-th integer of
    line b is compared with. *)
Definition match_section (k : nat) (lab : slabel) (n : Z) (cmp : nat -> Z -> outcome Z) (m : bool) (ts : list stok)
  : outcome (bool * list stok) :=
  let '(found, ts) := smatch lab ts in
  if found then
    let '(count, ts) := sread ts in
    let m := m && bool_decide (count = n) in
    foldM (fun '(m, ts) b =>
      let '(_, ts) := sread ts in
      let '(l, ts) := sreads k ts in
      let '(_, ts) := sread ts in
      let? m := foldM (fun m '(p, z) => let? a := cmp p b in Ok (m && bool_decide (z = a))) m (imap (fun p z => (p, z)) l) in
      Ok (m, ts)) (m, ts) (seqZ 0 n)
  else Ok (m, ts).
(** Species.cpp:400-440. *)
Definition group_atom (gs : list sgroup) (p : nat) (b : Z) : outcome Z :=
  let? g := zget gs b in aget (sgAtoms g) p.
(** Species.cpp:385-443; line 422 looks up the third atom of an angle in speciesDihedrals_. *)
Definition match_structure (s : species) (ts : list stok) : outcome (bool * list stok) :=
  match ts with
  | TL LAtom :: ts =>
      let '(count, ts) := sread ts in
      let m := bool_decide (count = spNAtom s) in
      let? (m, ts) := foldM (fun '(m, ts) i =>
          let '(index, ts) := sread ts in
          let '(ty, ts) := sread ts in
          let? t := zget (spTypes s) i in
          Ok (m && bool_decide (index = i) && bool_decide (ty = t), ts)) (m, ts) (seqZ 0 (spNAtom s)) in
      let? (m, ts) := match_section 2 LBond (gtN (spBond s)) (group_atom (gtGroups (spBond s))) m ts in
      let? (m, ts) := match_section 3 LAngle (gtN (spAngle s))
          (fun p b => if decide (p = 2%nat) then group_atom (gtGroups (spDihedral s)) p b
                      else group_atom (gtGroups (spAngle s)) p b) m ts in
      match_section 4 LDihedral (gtN (spDihedral s)) (group_atom (gtGroups (spDihedral s))) m ts
  | _ => Throw
  end.

(** readStructure, Species.cpp:160-222, into a newly constructed species with capacity [cap]; a stream
    that ends early leaves the reads without a value ([UB]). *)
Definition ssread (ts : list stok) : outcome (Z * list stok) := match ts with TI z :: r => Ok (z, r) | _ => UB end.
(** Species.cpp:160-222. *)
Fixpoint ssreads (n : nat) (ts : list stok) : outcome (list Z * list stok) :=
  match n with O => Ok ([], ts) | S n => let? (z, ts) := ssread ts in let? (l, ts) := ssreads n ts in Ok (z :: l, ts) end.
(** Species.cpp:175-218. *)
Definition read_section (k : nat) (lab : slabel) (ts : list stok) : outcome (Z * list sgroup * list stok) :=
  let '(found, ts) := smatch lab ts in
  let? (n, ts) := if found then ssread ts else Ok (0, ts) in
  let? (gs, ts) := foldM (fun '(gs, ts) b =>
      let? (j, ts) := ssread ts in
      let? _ := check (bool_decide (j = b)) in
      let? (l, ts) := ssreads k ts in
      let? (t, ts) := ssread ts in
      Ok (gs ++ [SG l t], ts)) ([], ts) (seqZ 0 n) in
  Ok (n, gs, ts).
(** Species.cpp:160-222. *)
Definition read_structure (cap : Z) (ts : list stok) : outcome (species * list stok) :=
  match ts with
  | TL LAtom :: ts =>
      let? (n, ts) := ssread ts in
      let? _ := check (bool_decide (0 < n)) in
      let? (types, ts) := foldM (fun '(l, ts) (_ : Z) =>
          let? (_, ts) := ssread ts in let? (t, ts) := ssread ts in Ok (l ++ [t], ts)) ([], ts) (seqZ 0 n) in
      let? (nb, bs, ts) := read_section 2 LBond ts in
      let? (na, as_, ts) := read_section 3 LAngle ts in
      let? (nd, ds, ts) := read_section 4 LDihedral ts in
      let? s := sp_build cap n types nb bs na as_ nd ds in
      Ok (s, ts)
  | _ => Throw
  end.
