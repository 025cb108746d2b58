(** Model of the exchange of groups (bonds, angles, dihedrals) with atoms: DdMd::Exchanger (src/ddMd/communicate/Exchanger.cpp) with the functions of
    GroupStorage<N> that it calls (src/ddMd/storage/GroupStorage.tpp).  The storages of all kinds of groups are one list, in which a group has a
    kind (the index in groupExchangers_) and an id; every kind has its own capacity.  Group ids are in the range of GroupStorage::find, and a GroupStorage keeps the
    order of the groups that remain when others are removed (see GroupStorageModel for the storage itself). *)
From Verif Require Import Base Containers Vec3 PlanModel DomainModel SpeciesModel ExchModel.
From Coq Require Import Reals.
Local Open Scope nat_scope.

(** Members of Group<N>, Group.h:166-190: id, typeId, atom ids, pointers to atoms (null is [None]), plan; with the kind of the storage it is in. *)
Record ggroup := GG { gKind : nat; gId : Z; gType : Z; gAtoms : list Z; gPtrs : list (option nat); gPlan : plan }.
(** A processor: AtomStorage and Exchanger (ExchModel), and the GroupStorages, GroupStorage.h:444-466, with their capacities. *)
Record gproc := GP { gpX : xproc; gpCap : nat -> nat; gpGroups : list ggroup }.

(** Group::setAtomPtr and clearAtomPtr for all atoms, Group.h:297-319. *)
Definition with_ptrs (g : ggroup) (l : list (option nat)) : ggroup := GG (gKind g) (gId g) (gType g) (gAtoms g) l (gPlan g).
(** Group::plan() as an lvalue, Group.h:325-326. *)
Definition with_plan (g : ggroup) (p : plan) : ggroup := GG (gKind g) (gId g) (gType g) (gAtoms g) (gPtrs g) p.
(** The pointers that are not null; Group::atomPtr, Group.h:355-356. *)
Definition ptrs (g : ggroup) : list nat := omap (fun o => o) (gPtrs g).
(** Group::nPtr() == N: Group.h:362-363, with N the number of atoms of a group. *)
Definition is_complete (g : ggroup) : bool := Nat.eqb (length (ptrs g)) (length (gAtoms g)).

(** *** markSpanningGroups *)
(** ++nOut for one atom, GroupStorage.tpp:530-556; [ghosts] are the pointers to ghosts. *)
Definition g_out (D : domain) (s : vec3 R) (mem : nat -> xatom) (ghosts : list nat) (i j h : nat) : bool :=
  let x := vget (xPos (mem h)) i in
  if decide (h ∈ ghosts) then
    match j with 0 => if Rlt_dec x (xinner D (vget s i) i 0) then true else false | _ => if Rlt_dec (xinner D (vget s i) i 1) x then true else false end
  else exchange (xPlan (mem h)) i j.
(** ++nIn for one atom, GroupStorage.tpp:530-556. *)
Definition g_in (D : domain) (s : vec3 R) (mem : nat -> xatom) (ghosts : list nat) (i j h : nat) : bool :=
  let x := vget (xPos (mem h)) i in
  if decide (h ∈ ghosts) then
    match j with 0 => if Rlt_dec (xouter D (vget s i) i 0) x then true else false | _ => if Rlt_dec x (xouter D (vget s i) i 1) then true else false end
  else negb (exchange (xPlan (mem h)) i j).
(** nOut > 0 && nIn > 0, GroupStorage.tpp:523-559. *)
Definition spans (D : domain) (s : vec3 R) (mem : nat -> xatom) (ghosts : list nat) (i j : nat) (g : ggroup) : bool :=
  existsb (g_out D s mem ghosts i j) (ptrs g) && existsb (g_in D s mem ghosts i j) (ptrs g).
(** The plan of a group, GroupStorage.tpp:517-614. *)
Definition group_plan (D : domain) (s : vec3 R) (mem : nat -> xatom) (ghosts : list nat) (g : ggroup) : plan :=
  fold_left (fun p ij => if xflag D ij.1 then
                           if is_complete g then if spans D s mem ghosts ij.1 ij.2 g then setGhost p ij.1 ij.2 else clearGhost p ij.1 ij.2
                           else setGhost p ij.1 ij.2
                         else p) dirs (clearFlags (gPlan g)).
(** clearAtomPtr for the pointers that satisfy [f], e.g. GroupStorage.tpp:617-624. *)
Definition drop_ptrs (f : nat -> bool) (g : ggroup) : ggroup :=
  with_ptrs g (map (fun o : option nat => match o with Some h => if f h then None else Some h | None => None end) (gPtrs g)).
(** Body of the loop over groups, GroupStorage.tpp:516-626. *)
Definition mark_group (D : domain) (s : vec3 R) (mem : nat -> xatom) (ghosts : list nat) (g : ggroup) : ggroup :=
  drop_ptrs (fun h => bool_decide (h ∈ ghosts)) (with_plan g (group_plan D s mem ghosts g)).
(** First part of exchangeAtoms, Exchanger.cpp:214-337: plans of atoms, then markSpanningGroups, then clearGhosts. *)
Definition gstart (s : vec3 R) (q : gproc) : gproc :=
  let p := gpX q in let p1 := xstart s p in
  GP p1 (gpCap q) (map (mark_group (xpDom p) s (xpMem p1) (xpGhosts p)) (gpGroups q)).

(** *** pack and unpack *)
(** GroupStorage::pack, GroupStorage.tpp:641-682, before the atoms are removed: the groups that are left, and the packed ones.  Group::pack, Group.h:447-457, and unpack,
    Group.h:462-479, transfer everything but the pointers. *)
Definition gpack (i j : nat) (q : gproc) : list ggroup * list ggroup :=
  let out := fun h => exchange (xPlan (xpMem (gpX q) h)) i j in
  (List.filter (fun g => negb (bool_decide (ptrs g = []))) (map (drop_ptrs out) (gpGroups q)),
   map (drop_ptrs (fun _ => true)) (List.filter (fun g => existsb out (ptrs g)) (gpGroups q))).
(** AtomMap::find, AtomMap.h:230-231: the pointer [h] in [l] to the atom with this id.  Local atoms come first, see AtomMapModel. *)
Definition find_atom (mem : nat -> xatom) (l : list nat) (id : Z) : option nat := List.find (fun h => Z.eqb (xId (mem h)) id) l.
(** AtomMap::findGroupLocalAtoms, AtomMap.h:256-275; there are no ghosts. *)
Definition set_local (p : xproc) (g : ggroup) : ggroup := with_ptrs g (map (find_atom (xpMem p) (xpLocals p)) (gAtoms g)).
(** Same storage and same id: GroupStorage::find, GroupStorage.h:517-518. *)
Definition same_key (g h : ggroup) : bool := Nat.eqb (gKind g) (gKind h) && Z.eqb (gId g) (gId h).
(** Body of the loop of unpack, GroupStorage.tpp:694-707.  newPtr pops the reservoir (GroupStorage.tpp:139-147) and throws if that is empty, also if the group is here already. *)
Definition gtake (p : xproc) (cap : nat -> nat) (gs : list ggroup) (g : ggroup) : outcome (list ggroup) :=
  if decide (length (List.filter (fun h => Nat.eqb (gKind h) (gKind g)) gs) < cap (gKind g)) then
    if existsb (same_key g) gs then Ok (map (fun h => if same_key g h then set_local p h else h) gs)
    else Ok (gs ++ [set_local p g])
  else Throw.
(** GroupStorage::unpack, GroupStorage.tpp:686-712. *)
Definition gunpack (p : xproc) (cap : nat -> nat) (gs msg : list ggroup) : outcome (list ggroup) := foldM (gtake p cap) gs msg.
(** One round of the main loop of exchangeAtoms on all processors, Exchanger.cpp:353-547: atoms as in [xround], groups are packed before atoms are removed and unpacked
    after atoms are unpacked. *)
Definition ground (i j : nat) (sys : list gproc) : outcome (list gproc) :=
  let? xs := xround i j (map gpX sys) in
  let packed := map (gpack i j) sys in
  mapO (fun c => let p := c.1 in let q := c.2 in
          if xflag (xpDom p) i then
            let? msg := aget (map snd packed) (Z.to_nat (dSource (xpDom p) i j)) in
            let? gs := gunpack p (gpCap q) (gpack i j q).1 msg in Ok (GP p (gpCap q) gs)
          else Ok (GP p (gpCap q) (gpGroups q))) (zip xs sys).

(** *** markGhosts and findGhosts *)
(** Mark the atom [h] for direction (i, j) and append it to sendArray_(i, j) if it is not yet marked, GroupStorage.tpp:783-793. *)
Definition mark_one (i j : nat) (p : xproc) (h : nat) : xproc :=
  let a := xpMem p h in
  if ghost (xPlan a) i j then p else
  XP (xpDom p) (xpCap p) (xpGCap p)
     (fun k => if decide (k = h) then XA (xId a) (xType a) (xPos a) (setGhost (xPlan a) i j) (xForce a) (xRest a) else xpMem p k)
     (xpNext p) (xpLocals p) (xpGhosts p) (fun a b => if decide (a = i /\ b = j) then xpSend p i j ++ [h] else xpSend p a b) (xpRecv p).
(** Body of the loop of markGhosts, GroupStorage.tpp:775-802. *)
Definition mark_incomplete (p : xproc) (g : ggroup) : xproc :=
  if is_complete g then p else
  fold_left (fun p ij => if xflag (xpDom p) ij.1 && ghost (gPlan g) ij.1 ij.2 then fold_left (mark_one ij.1 ij.2) (ptrs g) p else p) dirs p.
(** GroupStorage::markGhosts, GroupStorage.tpp:733-806, called at Exchanger.cpp:585-590. *)
Definition gmarkGhosts (q : gproc) : gproc := GP (fold_left mark_incomplete (gpGroups q) (gpX q)) (gpCap q) (gpGroups q).
(** exchangeAtoms, Exchanger.cpp:201-591, on all processors. *)
Definition gexchangeAtoms (s : vec3 R) (sys : list gproc) : outcome (list gproc) :=
  let? sys := foldM (fun sys ij => ground ij.1 ij.2 sys) (map (gstart s) sys) dirs in Ok (map gmarkGhosts sys).
(** AtomMap::findGroupGhostAtoms, AtomMap.h:280-301, and GroupStorage::findGhosts, GroupStorage.tpp:811-826, for one group. *)
Definition find_ghosts (p : xproc) (g : ggroup) : outcome ggroup :=
  if is_complete g then Ok g else
  let g := with_ptrs g (zip_with (fun o id => match o with Some h => Some h | None => find_atom (xpMem p) (xpLocals p ++ xpGhosts p) id end) (gPtrs g) (gAtoms g)) in
  if is_complete g then Ok g else Throw.
(** exchangeGhosts, Exchanger.cpp:600-814, on all processors. *)
Definition gexchangeGhosts (sys : list gproc) : outcome (list gproc) :=
  let? xs := exchangeGhosts (map gpX sys) in
  mapO (fun c => let? gs := mapO (find_ghosts c.1) (gpGroups c.2) in Ok (GP c.1 (gpCap c.2) gs)) (zip xs sys).
(** exchange, Exchanger.cpp:106-113; coordinates are generalized. *)
Definition gexchange (s : vec3 R) (sys : list gproc) : outcome (list gproc) := let? sys := gexchangeAtoms s sys in gexchangeGhosts sys.
