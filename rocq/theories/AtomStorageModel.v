(** Model of DdMd::AtomStorage: slots for local and ghost atoms, their sets,
    reservoirs and the atom map.  Positions and velocities are not part of this
    model (see CoordModel for the coordinate flag). *)
From Verif Require Import Base Containers AtomMapModel.
From stdpp Require Import gmap.

(** AtomStorage.h: members.  Slot n of atoms_ is [PL n], slot n of ghosts_ is
    [PG n]; sets and reservoirs hold slot numbers. *)
Record storage := Storage {
  lids : list Z;          (* ids of the local slots, atoms_[n].id() *)
  gids : list Z;          (* ids of the ghost slots *)
  aSet : list nat;        (* atomSet_ *)
  aRes : list nat;        (* atomReservoir_, top first *)
  gSet : list nat;        (* ghostSet_ *)
  gRes : list nat;        (* ghostReservoir_ *)
  smap : amap;            (* map_ *)
  newA : option nat;      (* newAtomPtr_ *)
  newG : option nat;      (* newGhostPtr_ *)
  locked : bool           (* locked_ *)
}.

(** Atom::id() through a pointer into atoms_ or ghosts_, AtomStorage.h:532, 541. *)
Definition st_id (s : storage) (p : ptr) : Z :=
  match p with
  | PL n => default (-1)%Z (lids s !! n)
  | PG n => default (-1)%Z (gids s !! n)
  end.

(** AtomStorage.cpp:119-145 (allocate): reservoirs are filled so that slot 0 is on
    top. *)
Definition storage_init (capA capG total : nat) : storage :=
  Storage (replicate capA (-1)%Z) (replicate capG (-1)%Z)
          [] (seq 0 capA) [] (seq 0 capG) (amap_allocate total) None None false.

Section Storage.
  Variable choose : list ptr -> nat.

  (** Assignment to map_ (AtomStorage.h:550). *)
  Definition upd_map (s : storage) (m : amap) : storage :=
    Storage (lids s) (gids s) (aSet s) (aRes s) (gSet s) (gRes s) m (newA s) (newG s) (locked s).

  (** AtomStorage.cpp:187-203.  Atom::clear sets the id to -1
      (chemistry/Atom.cpp:69-80). *)
  Definition newAtomPtr (s : storage) : res storage nat :=
    match newA s with
    | Some _ => RThrow s
    | None =>
        if locked s then RThrow s else
        match aRes s with
        | [] => RThrow s
        | n :: r =>
            ROk (Storage (<[n := (-1)%Z]> (lids s)) (gids s) (aSet s) r (gSet s) (gRes s)
                         (smap s) (Some n) (newG s) (locked s)) n
        end
    end.

  (** AtomStorage.cpp:208-227 (the statistics member maxNAtomLocal_ is left out). *)
  Definition addNewAtom (s : storage) : res storage unit :=
    match newA s with
    | None => RThrow s
    | Some n =>
        if locked s then RThrow s else
        match addLocal (st_id s) (smap s) (PL n) with
        | Ok m =>
            match set_append (aSet s) n with
            | Ok l => ROk (Storage (lids s) (gids s) l (aRes s) (gSet s) (gRes s) m
                                   None (newG s) (locked s)) tt
            | Throw => RThrow (upd_map s m)
            | UB => RUB
            end
        | Throw => RThrow s
        | UB => RUB
        end
    end.

  (** Client: newAtomPtr()->setId(id) on the pending atom.  Without a pending atom
      the client holds no such pointer; the operation is then void.  AtomStorage.cpp:229-235. *)
  Definition setNewId (s : storage) (id : Z) : res storage unit :=
    match newA s with
    | Some n => ROk (Storage (<[n := id]> (lids s)) (gids s) (aSet s) (aRes s) (gSet s) (gRes s)
                             (smap s) (newA s) (newG s) (locked s)) tt
    | None => ROk s tt
    end.

  (** AtomStorage.cpp:229-235. *)
  Definition addAtom (s : storage) (id : Z) : res storage unit :=
    match newAtomPtr s with
    | ROk s1 n => match setNewId s1 id with
                  | ROk s2 _ => addNewAtom s2
                  | r => r
                  end
    | RThrow s1 => RThrow s1
    | RUB => RUB
    end.

  (** AtomStorage.cpp:240-245.  There is no test of locked_. *)
  Definition removeAtom (s : storage) (n : nat) : res storage unit :=
    if decide (n < length (lids s)) then
      match removeLocal (st_id s) choose (smap s) (PL n) with
      | Ok m =>
          match set_remove (aSet s) n with
          | Ok l =>
              match stack_push (length (lids s)) (aRes s) n with
              | Ok r => ROk (Storage (lids s) (gids s) l r (gSet s) (gRes s) m
                                     (newA s) (newG s) (locked s)) tt
              | Throw => RThrow (Storage (lids s) (gids s) l (aRes s) (gSet s) (gRes s) m
                                     (newA s) (newG s) (locked s))
              | UB => RUB
              end
          | Throw => RThrow (upd_map s m)
          | UB => RUB
          end
      | Throw => RThrow s
      | UB => RUB
      end
    else RUB.

  (** Loop of AtomStorage.cpp:258-262; [k] bounds the number of iterations. *)
  Fixpoint clearAtoms_loop (k : nat) (s : storage) : res storage unit :=
    match k with
    | 0 => ROk s tt
    | S k' =>
        match set_pop (aSet s) with
        | Ok (n, l) =>
            let s1 := Storage (lids s) (gids s) l (aRes s) (gSet s) (gRes s) (smap s)
                              (newA s) (newG s) (locked s) in
            match removeLocal (st_id s1) choose (smap s1) (PL n) with
            | Ok m =>
                match stack_push (length (lids s1)) (aRes s1) n with
                | Ok r => clearAtoms_loop k'
                            (Storage (lids s) (gids s) l r (gSet s) (gRes s) m
                                     (newA s) (newG s) (locked s))
                | Throw => RThrow (upd_map s1 m)
                | UB => RUB
                end
            | Throw => RThrow s1
            | UB => RUB
            end
        | _ => ROk s tt
        end
    end.

  (** AtomStorage.cpp:250-271. *)
  Definition clearAtoms (s : storage) : res storage unit :=
    if locked s then RThrow s else
    match clearAtoms_loop (length (aSet s)) s with
    | ROk s' _ =>
        if decide (length (aSet s') = 0) then
          if decide (nLoc (smap s') = 0%Z) then ROk s' tt else RThrow s'
        else RThrow s'
    | r => r
    end.

  (** AtomStorage.cpp:278-292. *)
  Definition newGhostPtr (s : storage) : res storage nat :=
    match newG s with
    | Some _ => RThrow s
    | None =>
        if locked s then RThrow s else
        match gRes s with
        | [] => RThrow s
        | n :: r =>
            ROk (Storage (lids s) (<[n := (-1)%Z]> (gids s)) (aSet s) (aRes s) (gSet s) r
                         (smap s) (newA s) (Some n) (locked s)) n
        end
    end.

  (** Client: newGhostPtr()->setId(id).  AtomStorage.cpp:320-326. *)
  Definition setNewGhostId (s : storage) (id : Z) : res storage unit :=
    match newG s with
    | Some n => ROk (Storage (lids s) (<[n := id]> (gids s)) (aSet s) (aRes s) (gSet s) (gRes s)
                             (smap s) (newA s) (newG s) (locked s)) tt
    | None => ROk s tt
    end.

  (** AtomStorage.cpp:297-318. *)
  Definition addNewGhost (s : storage) : res storage unit :=
    match newG s with
    | None => RThrow s
    | Some n =>
        if locked s then RThrow s else
        match addGhost (st_id s) (smap s) (PG n) with
        | Ok m =>
            match set_append (gSet s) n with
            | Ok l => ROk (Storage (lids s) (gids s) (aSet s) (aRes s) l (gRes s) m
                                   (newA s) None (locked s)) tt
            | Throw => RThrow (upd_map s m)
            | UB => RUB
            end
        | Throw => RThrow s
        | UB => RUB
        end
    end.

  (** AtomStorage.cpp:320-326. *)
  Definition addGhostAtom (s : storage) (id : Z) : res storage unit :=
    match newGhostPtr s with
    | ROk s1 n => match setNewGhostId s1 id with
                  | ROk s2 _ => addNewGhost s2
                  | r => r
                  end
    | RThrow s1 => RThrow s1
    | RUB => RUB
    end.

  (** AtomStorage.cpp:331-339. *)
  Definition removeGhostAtom (s : storage) (n : nat) : res storage unit :=
    if decide (n < length (gids s)) then
      if locked s then RThrow s else
      match removeGhost (st_id s) choose (smap s) (PG n) with
      | Ok m =>
          match set_remove (gSet s) n with
          | Ok l =>
              match stack_push (length (gids s)) (gRes s) n with
              | Ok r => ROk (Storage (lids s) (gids s) (aSet s) (aRes s) l r m
                                     (newA s) (newG s) (locked s)) tt
              | Throw => RThrow (Storage (lids s) (gids s) (aSet s) (aRes s) l (gRes s) m
                                     (newA s) (newG s) (locked s))
              | UB => RUB
              end
          | Throw => RThrow (upd_map s m)
          | UB => RUB
          end
      | Throw => RThrow s
      | UB => RUB
      end
    else RUB.

  (** Loop of AtomStorage.cpp:355-358. *)
  Fixpoint popGhosts_loop (k : nat) (s : storage) : res storage unit :=
    match k with
    | 0 => ROk s tt
    | S k' =>
        match set_pop (gSet s) with
        | Ok (n, l) =>
            match stack_push (length (gids s)) (gRes s) n with
            | Ok r => popGhosts_loop k'
                        (Storage (lids s) (gids s) (aSet s) (aRes s) l r (smap s)
                                 (newA s) (newG s) (locked s))
            | _ => RThrow s
            end
        | _ => ROk s tt
        end
    end.

  (** AtomStorage.cpp:344-369. *)
  Definition clearGhostAtoms (s : storage) : res storage unit :=
    if locked s then RThrow s else
    match clearGhosts (st_id s) (smap s) (map PG (gSet s)) with
    | Ok m =>
        match popGhosts_loop (length (gSet s)) (upd_map s m) with
        | ROk s' _ =>
            if decide (length (gSet s') = 0) then
              if decide (nGhost (smap s') = 0%Z) then
                if decide (nGhD (smap s') = 0%Z) then ROk s' tt else RThrow s'
              else RThrow s'
            else RThrow s'
        | r => r
        end
    | Throw => RThrow s
    | UB => RUB
    end.

  (** Assignment to locked_, AtomStorage.cpp:389, 397. *)
  Definition upd_lock (s : storage) (b : bool) : storage :=
    Storage (lids s) (gids s) (aSet s) (aRes s) (gSet s) (gRes s) (smap s) (newA s) (newG s) b.

  (** The public member functions that change the storage, AtomStorage.h:157-340. *)
  Inductive st_op :=
  | ONewAtom | OSetId (id : Z) | OAddNew | OAddAtom (id : Z) | ORemoveAtom (n : nat)
  | OClearAtoms
  | ONewGhost | OSetGhostId (id : Z) | OAddNewGhost | OAddGhost (id : Z)
  | ORemoveGhost (n : nat) | OClearGhosts
  | OMakeSnapshot | OClearSnapshot.

  (** The result of newAtomPtr and newGhostPtr (AtomStorage.cpp:187, 278) is not used further. *)
  Definition forget {A} (r : res storage A) : res storage unit :=
    match r with ROk s _ => ROk s tt | RThrow s => RThrow s | RUB => RUB end.

  (** Dispatch to the member functions (AtomStorage.h).  makeSnapshot
      (AtomStorage.cpp:376-390) is taken with Cartesian coordinates; only its
      effect on locked_ is kept.  clearSnapshot: 395-398. *)
  Definition st_step (s : storage) (o : st_op) : res storage unit :=
    match o with
    | ONewAtom => forget (newAtomPtr s)
    | OSetId id => setNewId s id
    | OAddNew => addNewAtom s
    | OAddAtom id => addAtom s id
    | ORemoveAtom n => removeAtom s n
    | OClearAtoms => clearAtoms s
    | ONewGhost => forget (newGhostPtr s)
    | OSetGhostId id => setNewGhostId s id
    | OAddNewGhost => addNewGhost s
    | OAddGhost id => addGhostAtom s id
    | ORemoveGhost n => removeGhostAtom s n
    | OClearGhosts => clearGhostAtoms s
    | OMakeSnapshot => ROk (upd_lock s true) tt
    | OClearSnapshot => ROk (upd_lock s false) tt
    end.

  (** A history; calls that throw leave the state they reached and the history
      goes on.  [None] = undefined behaviour.  Histories of calls of AtomStorage.cpp:187-398. *)
  Fixpoint st_run (s : storage) (ops : list st_op) : option storage :=
    match ops with
    | [] => Some s
    | o :: ops' =>
        match st_step s o with
        | ROk s' _ | RThrow s' => st_run s' ops'
        | RUB => None
        end
    end.

  (** AtomMap.cpp:215-255, isValid of the map: [true] = returns, [false] = throws. *)
  Definition map_isValid (idof : ptr -> Z) (m : amap) : bool :=
    forallb (fun ip => match ip.2 with
                       | Some p => bool_decide (idof p = Z.of_nat ip.1)
                       | None => true end)
            (imap pair (aptrs m))
    && bool_decide (Z.of_nat (length (omap id (aptrs m))) = nLoc m + nGhD m)%Z
    && forallb (fun e => bool_decide (e.1 = idof e.2) &&
                         match slot m (idof e.2) with Some _ => true | None => false end)
               (gmm m).

  (** AtomStorage.cpp:592-665, isValid.  The isGhost flag of an atom is the
      constructor of its address. *)
  Definition st_isValid (s : storage) : bool :=
    bool_decide (length (aSet s) + length (aRes s) = length (lids s)) &&
    bool_decide (length (gSet s) + length (gRes s) = length (gids s)) &&
    bool_decide (Z.of_nat (length (gSet s)) = nGhost (smap s)) &&
    map_isValid (st_id s) (smap s) &&
    forallb (fun n => bool_decide (slot (smap s) (st_id s (PL n)) = Some (PL n))) (aSet s) &&
    forallb (fun n => match slot (smap s) (st_id s (PG n)) with Some _ => true | None => false end)
            (gSet s).
End Storage.
