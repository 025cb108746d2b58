(** Model of DdMd::AtomMap: array of pointers indexed by atom id, plus a multimap
    holding further ghost copies. *)
From Verif Require Import Base.
From stdpp Require Import gmap.

(** Address of an Atom: an element of AtomStorage::atoms_ ([PL n]) or of
    AtomStorage::ghosts_ ([PG n]).  AtomStorage.h: atoms_, ghosts_. *)
Inductive ptr := PL (n : nat) | PG (n : nat).

Global Instance ptr_eq_dec : EqDecision ptr.
Proof. solve_decision. Defined.
Global Instance ptr_countable : Countable ptr.
Proof.
  refine (inj_countable' (fun p => match p with PL n => inl n | PG n => inr n end)
    (fun s => match s with inl n => PL n | inr n => PG n end) _).
  by intros [].
Defined.

(** AtomMap.h:187-199.  totalAtomCapacity_ is the length of [aptrs]. *)
Record amap := AMap {
  aptrs : list (option ptr);      (* atomPtrs_ *)
  gmm : list (Z * ptr);           (* ghostMap_, a multimap *)
  nLoc : Z;                       (* nLocal_ *)
  nGhD : Z                        (* nGhostDistinct_ *)
}.

(** AtomMap.cpp:40-52. *)
Definition amap_allocate (cap : nat) : amap := AMap (replicate cap None) [] 0 0.

Section AtomMap.
  (** [ptr->id()] for the atoms as they are now. *)
  Variable idof : ptr -> Z.
  (** std::unordered_multimap::find may return any element with the given key;
      [choose] picks one (index modulo the number of candidates). *)
  Variable choose : list ptr -> nat.

  (** The tests of the range of an id, AtomMap.cpp:63-65, 87-89, 123-125, 142-144. *)
  Definition in_range (m : amap) (id : Z) : bool :=
    bool_decide (0 <= id < Z.of_nat (length (aptrs m)))%Z.

  (** atomPtrs_[id] with id already range-checked by the caller.  AtomMap.h:187, 230-231. *)
  Definition slot (m : amap) (id : Z) : option ptr :=
    match aptrs m !! Z.to_nat id with Some o => o | None => None end.

  (** The same, as the target of an assignment: AtomMap.cpp:57-180. *)
  Definition set_slot (m : amap) (id : Z) (o : option ptr) : list (option ptr) :=
    <[Z.to_nat id := o]> (aptrs m).

  (** AtomMap.cpp:57-78. *)
  Definition addLocal (m : amap) (p : ptr) : outcome amap :=
    let id := idof p in
    if in_range m id then
      match slot m id with
      | Some _ => Throw
      | None => Ok (AMap (set_slot m id (Some p)) (gmm m) (nLoc m + 1) (nGhD m))
      end
    else Throw.

  (** Multimap lookup by key and erase of one entry.  AtomMap.cpp:98, 154. *)
  Definition candidates (l : list (Z * ptr)) (id : Z) : list ptr :=
    omap (fun e => if decide (e.1 = id) then Some e.2 else None) l.
  (** GhostMap::find, AtomMap.cpp:98, 154. *)
  Definition pick (l : list (Z * ptr)) (id : Z) : option ptr :=
    let c := candidates l id in c !! (choose c mod length c).
  (** GhostMap::erase, AtomMap.cpp:102, 158. *)
  Fixpoint erase (e : Z * ptr) (l : list (Z * ptr)) : list (Z * ptr) :=
    match l with
    | [] => []
    | x :: l' => if decide (x = e) then l' else x :: erase e l'
    end.

  (** AtomMap.cpp:96-104 and 152-160: after emptying slot [id], move one ghost
      with the same id, if any, from the multimap into the slot. *)
  Definition promote (m : amap) (id : Z) : amap :=
    match pick (gmm m) id with
    | Some q => AMap (set_slot m id (Some q)) (erase (id, q) (gmm m))
                     (nLoc m) (nGhD m + 1)
    | None => m
    end.

  (** AtomMap.cpp:83-113. *)
  Definition removeLocal (m : amap) (p : ptr) : outcome amap :=
    let id := idof p in
    if in_range m id then
      if decide (slot m id = Some p) then
        Ok (promote (AMap (set_slot m id None) (gmm m) (nLoc m - 1) (nGhD m)) id)
      else Throw
    else Throw.

  (** AtomMap.cpp:120-134. *)
  Definition addGhost (m : amap) (p : ptr) : outcome amap :=
    let id := idof p in
    if in_range m id then
      match slot m id with
      | None => Ok (AMap (set_slot m id (Some p)) (gmm m) (nLoc m) (nGhD m + 1))
      | Some _ => Ok (AMap (aptrs m) (gmm m ++ [(id, p)]) (nLoc m) (nGhD m))
      end
    else Throw.

  (** AtomMap.cpp:139-183. *)
  Definition removeGhost (m : amap) (p : ptr) : outcome amap :=
    let id := idof p in
    if in_range m id then
      if decide (slot m id = Some p) then
        Ok (promote (AMap (set_slot m id None) (gmm m) (nLoc m) (nGhD m - 1)) id)
      else
        match slot m id with
        | Some _ =>
            if decide ((id, p) ∈ gmm m)
            then Ok (AMap (aptrs m) (erase (id, p) (gmm m)) (nLoc m) (nGhD m))
            else Throw
        | None => Throw
        end
    else Throw.

  (** AtomMap.h:248-249. *)
  Definition nGhost (m : amap) : Z := nGhD m + Z.of_nat (length (gmm m)).

  (** One iteration of AtomMap.cpp:199-206.  No range check in C++: an id outside
      the array is undefined behaviour. *)
  Definition clear_one (m : amap) (p : ptr) : outcome amap :=
    let id := idof p in
    if in_range m id then
      if decide (slot m id = Some p)
      then Ok (AMap (set_slot m id None) (gmm m) (nLoc m) (nGhD m - 1))
      else Ok m
    else UB.

  (** AtomMap.cpp:185-208; the argument is the ghost set as a list. *)
  Definition clearGhosts (m : amap) (gs : list ptr) : outcome amap :=
    if decide (Z.of_nat (length gs) = nGhost m) then
      run clear_one (AMap (aptrs m) [] (nLoc m) (nGhD m)) gs
    else Throw.

  (** AtomMap.h:230-231, find (here map_find).  No range check. *)
  Definition map_find (m : amap) (id : Z) : outcome (option ptr) :=
    if in_range m id then Ok (slot m id) else UB.
End AtomMap.

(** One public call, for histories.  AtomMap.h:58-98. *)
Inductive map_op :=
| MAddLocal (p : ptr) | MRemoveLocal (p : ptr)
| MAddGhost (p : ptr) | MRemoveGhost (p : ptr)
| MClearGhosts (gs : list ptr).

(** Dispatch (AtomMap.h:65-98). *)
Definition map_step idof choose (m : amap) (o : map_op) : outcome amap :=
  match o with
  | MAddLocal p => addLocal idof m p
  | MRemoveLocal p => removeLocal idof choose m p
  | MAddGhost p => addGhost idof m p
  | MRemoveGhost p => removeGhost idof choose m p
  | MClearGhosts gs => clearGhosts idof m gs
  end.
