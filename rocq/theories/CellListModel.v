(** Model of McMd::CellList (src/mcMd/neighbor/CellList.cpp, CellList.h), over real numbers.  The class of the Boundary
    enters only through lengths() and transformCartToGen, which are parameters here.  Atoms are their ids. *)
From Verif Require Import Base Vec3 McCellModel DomainModel SpeciesModel.
From Coq Require Import Reals.
Local Open Scope R_scope.

(** CellList.h:247-293.  A CellTag is [Some (cellId, cellPos)], or [None] when cleared (CellTag.h:46-50);
    atomCapacity_ is the length of clTags, boundaryPtr_ the parameter toGen. *)
Record clist := CL {
  clCells : list cell;  clTags : list (option (nat * nat));
  clInv : vec3 R;  clMinDel : vec3 Z;  clMaxDel : vec3 Z;  clNum : vec3 Z;  clMin : vec3 Z;  clMax : vec3 Z;
  clYZ : Z;  clTot : Z
}.

Section CellList.
  (** Cell::MaxAtomCell. *)
  Variable M : nat.
  (** boundaryPtr_->transformCartToGen. *)
  Variable toGen : vec3 R -> vec3 R.

  (** CellList::CellList, CellList.cpp:20-33, with setAtomCapacity, 92-109, called once with [cap] > 0. *)
  Definition cl_new (cap : nat) : clist :=
    let z := V3 0%Z 0%Z 0%Z in CL [] (replicate cap None) (V3 0 0 0) z z z z z 0 0.

  (** setCellsAxis, CellList.cpp:65-87: number of cells, and the range of displacements for that number. *)
  Definition axis_num (len cutoff : R) : Z := let n := Rtrunc (len / cutoff) in if (n <? 1)%Z then 1%Z else n.
  (** CellList.cpp:77-86. *)
  Definition axis_dels (n : Z) : Z * Z :=
    if (2 <? n)%Z then (-1, 1)%Z else if (n =? 2)%Z then (-1, 0)%Z else (0, 0)%Z.

  (** clear, CellList.cpp:44-60. *)
  Definition cl_clear (l : clist) : clist :=
    CL (replicate (length (clCells l)) (cell_clear M)) (replicate (length (clTags l)) None)
       (clInv l) (clMinDel l) (clMaxDel l) (clNum l) (clMin l) (clMax l) (clYZ l) (clTot l).

  (** setup, CellList.cpp:114-141; [lens] is boundary.lengths(). *)
  Definition cl_setup (lens : vec3 R) (cutoff : R) (l : clist) : outcome clist :=
    if Rle_dec cutoff 0 then Throw else
    let num := vmap (fun x => axis_num x cutoff) lens in
    let yz := (vy num * vz num)%Z in
    let tot := (yz * vx num)%Z in
    let? _ := check (bool_decide (1 <= tot)%Z) in
    let cells := if decide (Z.of_nat (length (clCells l)) < tot)%Z then replicate (Z.to_nat tot) (cell_clear M)
                 else clCells l in
    Ok (cl_clear (CL cells (clTags l) (vmap IZR num)
                     (vmap (fun n => (axis_dels n).1) num) (vmap (fun n => (axis_dels n).2) num)
                     num (V3 0 0 0)%Z (vmap (fun n => n - 1)%Z num) yz tot)).

  (** cellIndexFromPosition, CellList.h:361-381. *)
  Definition cl_index (l : clist) (pos : vec3 R) : Z :=
    let g := toGen pos in
    let cx := Rtrunc (vx g * vx (clInv l)) in
    let cy := Rtrunc (vy g * vy (clInv l)) in
    let cz := Rtrunc (vz g * vz (clInv l)) in
    (cz + cy * vz (clNum l) + cx * clYZ l)%Z.
  (** cellIndexFromCoord, CellList.h:449-452. *)
  Definition cl_coord_index (l : clist) (c : vec3 Z) : Z := (vx c * clYZ l + vy c * vz (clNum l) + vz c)%Z.
  (** cellCoordFromIndex, CellList.h:457-464 (int division truncates). *)
  Definition cl_index_coord (l : clist) (i : Z) : vec3 Z :=
    let cx := Z.quot i (clYZ l) in
    let i := (i - cx * clYZ l)%Z in
    let cy := Z.quot i (vz (clNum l)) in
    V3 cx cy (i - cy * vz (clNum l))%Z.
  (** shiftCellCoordAxis, CellList.h:439-444. *)
  Definition cl_shift (l : clist) (i : nat) (x : Z) : Z :=
    if (vget (clMax l) i <? x)%Z then (x - vget (clNum l) i)%Z
    else if (x <? vget (clMin l) i)%Z then (x + vget (clNum l) i)%Z else x.

  (** The cell list with other contents of cells_ and cellTags_ (CellList.h:250, 253). *)
  Definition cl_put (l : clist) (cells : list cell) (tags : list (option (nat * nat))) : clist :=
    CL cells tags (clInv l) (clMinDel l) (clMaxDel l) (clNum l) (clMin l) (clMax l) (clYZ l) (clTot l).

  (** cells_[id].addAtom(cellTags_[a], atom, id): CellList.h:403, 418 with Cell.h:181-233. *)
  Definition cl_cell_add (l : clist) (a : nat) (id : Z) : outcome clist :=
    let? c := zget (clCells l) id in
    let? _ := aget (clTags l) a in
    let? (c, p) := cell_add M c a in
    let? cells := zset (clCells l) id c in
    let? tags := aset (clTags l) a (Some (Z.to_nat id, p)) in
    Ok (cl_put l cells tags).
  (** cells_[tag.cellId].deleteAtom(tag): CellList.h:391, 417 with Cell.h:150-176; a cleared tag gives index -1. *)
  Definition cl_cell_delete (l : clist) (a : nat) : outcome clist :=
    let? t := aget (clTags l) a in
    match t with
    | None => UB
    | Some (id, p) =>
        let? c := aget (clCells l) id in
        let? c := cell_delete c p in
        let? cells := aset (clCells l) id c in
        let? tags := aset (clTags l) a None in
        Ok (cl_put l cells tags)
    end.
  (** addAtom, CellList.h:397-404; [pos] is atom.position(). *)
  Definition cl_add (l : clist) (a : nat) (pos : vec3 R) : outcome clist := cl_cell_add l a (cl_index l pos).
  (** deleteAtom, CellList.h:386-392. *)
  Definition cl_delete (l : clist) (a : nat) : outcome clist := cl_cell_delete l a.
  (** updateAtomCell, CellList.h:409-420. *)
  Definition cl_update (l : clist) (a : nat) (pos : vec3 R) : outcome clist :=
    let? t := aget (clTags l) a in
    let old := match t with Some (id, _) => Z.of_nat id | None => (-1)%Z end in
    let new := cl_index l pos in
    if decide (old = new) then Ok l else
    let? l := cl_cell_delete l a in
    cl_cell_add l a new.

  (** FSArray::append (util, documented): throws when full; NeighborArray has capacity 27*MaxAtomCell, CellList.h:69-76. *)
  Definition nb_append (nb : list nat) (a : nat) : outcome (list nat) :=
    if decide (length nb < 27 * M)%nat then Ok (nb ++ [a]) else Throw.
  (** The loops over the atoms of one cell, CellList.cpp:166-173 and 195-201 ([cell_atoms] skips null pointers). *)
  Definition nb_cell (nb : list nat) (c : cell) : outcome (list nat) := foldM nb_append nb (cell_atoms c).

  (** The displacements minDel_[i] .. maxDel_[i].  CellList.cpp:178, 182, 186. *)
  Definition dels (l : clist) (i : nat) : list Z :=
    seqZ (vget (clMinDel l) i) (vget (clMaxDel l) i - vget (clMinDel l) i + 1).
  (** getCellNeighbors, CellList.cpp:146-211: neighbors and nInCell. *)
  Definition cell_neighbors (l : clist) (ic : Z) : outcome (list nat * nat) :=
    let c0 := cl_index_coord l ic in
    let? c := zget (clCells l) ic in
    let? nb := nb_cell [] c in
    let nIn := length nb in
    let? nb := foldM (fun nb dx =>
      let jx := cl_shift l 0 (vx c0 + dx)%Z in
      foldM (fun nb dy =>
        let jy := cl_shift l 1 (vy c0 + dy)%Z in
        foldM (fun nb dz =>
          let jz := cl_shift l 2 (vz c0 + dz)%Z in
          let jc := cl_coord_index l (V3 jx jy jz) in
          if decide (jc = ic) then Ok nb else
          let? c := zget (clCells l) jc in nb_cell nb c) nb (dels l 2)) nb (dels l 1)) nb (dels l 0) in
    Ok (nb, nIn).
  (** getNeighbors, CellList.h:425-431. *)
  Definition get_neighbors (l : clist) (pos : vec3 R) : outcome (list nat) :=
    let? (nb, _) := cell_neighbors l (cl_index l pos) in Ok nb.
  (** nAtom, CellList.cpp:222-229. *)
  Definition cl_nAtom (l : clist) : outcome Z :=
    foldM (fun s i => let? c := zget (clCells l) i in Ok (s + ncell c)%Z) 0%Z (seqZ 0 (clTot l)).
End CellList.

(** The calls that change which atoms a cell list holds (CellList.h:145, 151, 158, 175). *)
Inductive clop := CAdd (a : nat) (pos : vec3 R) | CDel (a : nat) | CUpd (a : nat) (pos : vec3 R) | CClear.
(** One such call (CellList.h:386-420, CellList.cpp:44-60). *)
Definition cl_step (M : nat) (toGen : vec3 R -> vec3 R) (l : clist) (o : clop) : outcome clist :=
  match o with
  | CAdd a pos => cl_add M toGen l a pos
  | CDel a => cl_delete l a
  | CUpd a pos => cl_update M toGen l a pos
  | CClear => Ok (cl_clear M l)
  end.
