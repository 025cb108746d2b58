(** Model of the energies and forces of a whole system: McPairPotentialImpl, MdPairPotentialImpl, the bonded potentials
    (BondPotentialImpl, AnglePotentialImpl, DihedralPotentialImpl, LinkPotentialImpl), ExternalPotentialImpl and
    McSystem::atomPotentialEnergy / potentialEnergy, over real numbers.  The interaction classes and the boundary enter as
    functions; atoms are their ids.  Tethers, Coulomb potentials and the caching of energies in Setable members are left
    out.  Vector arithmetic (Util::Vector) is vadd, vsub, vscale, vdot of BoxSpec. *)
From Verif Require Import Base Vec3 BoxSpec OrthoModel MonoModel McCellModel DomainModel SpeciesModel CellListModel PairListModel.
From Coq Require Import Reals.
Local Open Scope R_scope.

(** A bond, angle, dihedral or link: its atoms and its type id (src/mcMd/chemistry/Group.h, links/Link.h). *)
Record group := Grp { gAt : list nat; gTy : Z }.

(** One bonded potential.  [kE] is the energy of a group as a function of the positions of its atoms and its type id;
    [kMols] are the molecules in the order of the loops over species and molecules; [kGrp] their groups (Molecule::bond,
    angle, dihedral); [kMolOf] is Atom::molecule; [kIds] is Species::atomBondIds (atomAngleIds, atomDihedralIds) for the
    index of the atom in its molecule.  For links there is one list for the whole system, LinkMaster::link, and [kIds] is
    LinkMaster::atomLinkSet.  src/mcMd/potentials/bond/BondPotentialImpl.h, and the same for angles, dihedrals and links. *)
Record gkind := GK {
  kE : list (vec3 R) -> Z -> R;  kMols : list nat;  kGrp : nat -> list group;  kMolOf : nat -> nat;  kIds : nat -> list nat
}.

(** Positions and type ids of all atoms (Atom::position, Atom::typeId, src/mcMd/chemistry/Atom.h), and the cell list of the
    McPairPotential (McPairPotential.h: cellList_). *)
Record mcs := MC { sPos : nat -> vec3 R;  sTy : nat -> Z;  sCells : clist }.

Section Energy.
  (** Cell::MaxAtomCell; transformCartToGen, distanceSq, shift and lengths of the boundary. *)
  Variables (M : nat) (toGen : vec3 R -> vec3 R) (dist2 : vec3 R -> vec3 R -> R) (wrap : vec3 R -> vec3 R) (lens : vec3 R).
  (** Mask::isMasked; energy(rsq, type, type) and maxPairCutoff of the pair interaction. *)
  Variables (masked : nat -> nat -> bool) (u : R -> Z -> Z -> R) (cut : R).
  (** The bonded potentials present, in the order bond, angle, dihedral, link; the external interaction, if any. *)
  Variables (kinds : list gkind) (ext : option (vec3 R -> Z -> R)).
  (** Atom::molecule of every atom. *)
  Variable molOf : nat -> nat.

  (** McPairPotential::buildCellList, McPairPotential.cpp:41-58; [atoms] in the order of the loops over species, molecules
      and atoms. *)
  Definition mc_enter (s : mcs) (a : nat) : outcome mcs :=
    let pos := move (sPos s) a (wrap (sPos s a)) in
    let? c := cl_add M toGen (sCells s) a (pos a) in Ok (MC pos (sTy s) c).
  (** McPairPotential.cpp:41-58. *)
  Definition mc_build (atoms : list nat) (s : mcs) : outcome mcs :=
    let? c := cl_setup M lens cut (sCells s) in
    foldM mc_enter (MC (sPos s) (sTy s) c) atoms.

  (** interaction().energy(distanceSq(...), type, type) of two atoms, McPairPotentialImpl.h:319-322. *)
  Definition pair_u (s : mcs) (i j : nat) : R := u (dist2 (sPos s i) (sPos s j)) (sTy s i) (sTy s j).

  (** McPairPotentialImpl::atomEnergy, McPairPotentialImpl.h:295-328. *)
  Definition pair_atom (s : mcs) (a : nat) : outcome R :=
    let? nb := get_neighbors M toGen (sCells s) (sPos s a) in
    Ok (fold_left (fun e j => if decide (j = a) then e else if masked a j then e else e + pair_u s a j) nb 0).
  (** moleculeEnergy, McPairPotentialImpl.h:333-374; [atoms] are the atoms of the molecule. *)
  Definition pair_mol (s : mcs) (atoms : list nat) : outcome R :=
    foldM (fun e i =>
      let? nb := get_neighbors M toGen (sCells s) (sPos s i) in
      Ok (fold_left (fun e j => if decide (j = i) then e else if masked i j then e else
            if decide (molOf i <> molOf j \/ (i < j)%nat) then e + pair_u s i j else e) nb e)) 0 atoms.
  (** computeEnergy, McPairPotentialImpl.h:379-428. *)
  Definition pair_total (s : mcs) : outcome R :=
    foldM (fun e ic =>
      let? (nb, nIn) := cell_neighbors M (sCells s) ic in
      foldM (fun e ip => let? i := aget nb ip in
        Ok (fold_left (fun e j => if decide (i < j)%nat then if masked i j then e else e + pair_u s i j else e) nb e))
        e (seq 0 nIn)) 0 (seqZ 0 (clTot (sCells s))).

  (** interaction().energy(...) of one group, BondPotentialImpl.h:312-314, AnglePotentialImpl.h:347-352,
      DihedralPotentialImpl.h:322-329, LinkPotentialImpl.h:282-284. *)
  Definition group_u (k : gkind) (s : mcs) (g : group) : R := kE k (map (sPos s) (gAt g)) (gTy g).
  (** atomEnergy of a bonded potential, BondPotentialImpl.h:300-319, AnglePotentialImpl.h:335-357,
      DihedralPotentialImpl.h:308-332, LinkPotentialImpl.h:269-288, with getAtomGroups.cpp:21-77. *)
  Definition kind_atom (s : mcs) (k : gkind) (a : nat) : outcome R :=
    foldM (fun e id => let? g := aget (kGrp k (kMolOf k a)) id in Ok (e + group_u k s g)) 0 (kIds k a).
  (** computeEnergy of a bonded potential, BondPotentialImpl.h:325-347, AnglePotentialImpl.h:363-389,
      DihedralPotentialImpl.h:338-367, LinkPotentialImpl.h:319-333. *)
  Definition kind_total (s : mcs) (k : gkind) : R :=
    fold_left (fun e m => fold_left (fun e g => e + group_u k s g) (kGrp k m) e) (kMols k) 0.
  (** ExternalPotentialImpl::atomEnergy, ExternalPotentialImpl.h:305-308, when there is an external potential. *)
  Definition ext_atom (s : mcs) (a : nat) : R := match ext with Some f => f (sPos s a) (sTy s a) | None => 0 end.
  (** ExternalPotentialImpl::computeEnergy, ExternalPotentialImpl.h:281-299. *)
  Definition ext_total (atoms : list nat) (s : mcs) : R := fold_left (fun e a => e + ext_atom s a) atoms 0.

  (** McSystem::atomPotentialEnergy, McSystem.cpp:458-497 (the external energy is added before that of the links). *)
  Definition sys_atom (s : mcs) (a : nat) : outcome R :=
    let? e := pair_atom s a in
    let? e := foldM (fun e k => let? x := kind_atom s k a in Ok (e + x)) e kinds in
    Ok (e + ext_atom s a).
  (** McSystem::potentialEnergy, McSystem.cpp:502-539, with every component computed afresh. *)
  Definition sys_total (atoms : list nat) (s : mcs) : outcome R :=
    let? e := pair_total s in
    Ok (fold_left (fun e k => e + kind_total s k) kinds e + ext_total atoms s).
End Energy.

(** energy(rsq, type) of a bond, BondPotentialImpl.h:311-314, and of a link, LinkPotentialImpl.h:282-284. *)
Definition bond_kE (dist2 : vec3 R -> vec3 R -> R) (v : R -> Z -> R) (ps : list (vec3 R)) (t : Z) : R :=
  match ps with [p0; p1] => v (dist2 p0 p1) t | _ => 0 end.
(** energy(cosTheta, type) of an angle, AnglePotentialImpl.h:348-353; [sep] p q is the vector dr set by
    boundary().distanceSq(p, q, dr). *)
Definition angle_kE (sep : vec3 R -> vec3 R -> vec3 R) (dist2 : vec3 R -> vec3 R -> R) (v : R -> Z -> R)
    (ps : list (vec3 R)) (t : Z) : R :=
  match ps with
  | [p0; p1; p2] => v (vdot (sep p1 p0) (sep p2 p1) / sqrt (dist2 p1 p0 * dist2 p2 p1)) t
  | _ => 0
  end.
(** energy(dr1, dr2, dr3, type) of a dihedral, DihedralPotentialImpl.h:323-330. *)
Definition dihedral_kE (sep : vec3 R -> vec3 R -> vec3 R) (v : vec3 R -> vec3 R -> vec3 R -> Z -> R)
    (ps : list (vec3 R)) (t : Z) : R :=
  match ps with [p0; p1; p2; p3] => v (sep p1 p0) (sep p2 p1) (sep p3 p2) t | _ => 0 end.

(** The loop of MdPairPotentialImpl::computeEnergy, MdPairPotentialImpl.h:378-391; None if [fuel] steps do not suffice; a
    null pointer is UB. *)
Definition md_pair_energy (dist2 : vec3 R -> vec3 R -> R) (u : R -> Z -> Z -> R) (fuel : nat) (p : plist)
    (pos : nat -> vec3 R) (ty : nat -> Z) : outcome (option R) :=
  let? o := it_loop fuel (pl_begin p) in
  match o with
  | None => Ok None
  | Some l =>
      let? e := foldM (fun e x => match x with
                       | (Some i, Some j) => Ok (e + u (dist2 (pos i) (pos j)) (ty i) (ty j))
                       | _ => UB
                       end) 0 l in Ok (Some e)
  end.
(** if (!isPairListCurrent()) buildPairList(), MdPairPotentialImpl.h:339-341 and 373-375. *)
Definition md_update (M : nat) (toGen : vec3 R -> vec3 R) (dist2 : vec3 R -> vec3 R -> R) (wrap : vec3 R -> vec3 R)
    (lens : vec3 R) (masked : nat -> nat -> bool) (atoms : list nat) (pos : nat -> vec3 R) (p : plist)
    : outcome ((nat -> vec3 R) * plist) :=
  let? c := pl_isCurrent dist2 pos p in
  if (c : bool) then Ok (pos, p) else pl_refresh M toGen dist2 wrap lens masked atoms pos p.

(** atom0.force() += f; atom1.force() -= f, MdPairPotentialImpl.h:360-361, BondPotentialImpl.h:371-372. *)
Definition scatter (F : nat -> vec3 R) (i j : nat) (f : vec3 R) : nat -> vec3 R :=
  let F := move F i (vadd (F i) f) in move F j (vsub (F j) f).

(** The loop of MdPairPotentialImpl::addForces, MdPairPotentialImpl.h:350-363; [dr2] is
    distanceSq(p, q, dr), [fr] is forceOverR and [cutsq] is cutoffSq of the interaction. *)
Definition md_pair_forces (dr2 : vec3 R -> vec3 R -> R * vec3 R) (fr : R -> Z -> Z -> R) (cutsq : Z -> Z -> R) (fuel : nat)
    (p : plist) (pos : nat -> vec3 R) (ty : nat -> Z) (F : nat -> vec3 R) : outcome (option (nat -> vec3 R)) :=
  let? o := it_loop fuel (pl_begin p) in
  match o with
  | None => Ok None
  | Some l =>
      let? F := foldM (fun F x => match x with
                       | (Some i, Some j) =>
                           let (rsq, d) := dr2 (pos i) (pos j) in
                           if Rlt_dec rsq (cutsq (ty i) (ty j)) then Ok (scatter F i j (vscale (fr rsq (ty i) (ty j)) d))
                           else Ok F
                       | _ => UB
                       end) F l in Ok (Some F)
  end.

(** The members of the boundary class that the energies use: transformCartToGen, distanceSq, shift and lengths, with its
    Bravais vectors.  Boundary is a typedef of OrthorhombicBoundary (src/simp/boundary/Boundary.h_r:21) which may be
    changed to MonoclinicBoundary. *)
Record boundary := Bd {
  bGen : vec3 R -> vec3 R;  bDist : vec3 R -> vec3 R -> R;  bWrap : vec3 R -> vec3 R;  bLens : vec3 R;  bBrav : vec3 (vec3 R)
}.
(** OrthorhombicBoundary.h:430-442, 537-555, 588-595, as in OrthoModel. *)
Definition ortho_bd (b : ortho) : boundary := Bd (cartToGen b) (distanceSq b) (shift1 b) (oLen b) (oBrav b).
(** MonoclinicBoundary.h:705-712 and the members cited in MonoModel. *)
Definition mono_bd (b : mono) : boundary := Bd (mono_cartToGen b) (mono_distanceSq b) (mono_shift1 b) (mLengths b) (mBrav b).
