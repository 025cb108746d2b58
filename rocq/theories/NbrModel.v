(** Model of the neighbour search of the parallel program: DdMd::CellList, Cell, PairList, PairIterator
    (src/ddMd/neighbor) and PairPotential::buildCellList, buildPairList (src/ddMd/potentials/pair/PairPotential.cpp), over
    real numbers.  Atoms are their addresses, numbered.  Cell::id is the index of the cell (CellList.cpp:147-150 sets it so), and
    the linked list of local cells (begin_, Cell::nextCellPtr_) is a list of indices.  Statistics are left out. *)
From Verif Require Import Base Vec3 BoxSpec DomainModel SpeciesModel.
From Coq Require Import Reals.
Local Open Scope R_scope.

(** Cell.h:240-259: begin_ as an index into atoms_, nAtom_, atomCapacity_, isGhostCell_. *)
Record dcell := DCell { dcBegin : nat;  dcN : nat;  dcCap : nat;  dcGhost : bool }.
(** CellList.h:315-363.  [wTags] are the first nAtom_ elements of tags_; atoms_ holds pointers ([None]: never set); [wList] is
    the linked list of local cells. *)
Record dclist := DCL {
  wGrid : vec3 Z;  wLen : vec3 R;  wLow : vec3 R;  wUp : vec3 R;  wCut : Z;  wOff : list (Z * Z);
  wCells : list dcell;  wList : list Z;  wTags : list (nat * Z);  wAtoms : list (option nat);  wRej : nat;  wBuilt : bool
}.

(** CellList::CellList, CellList.cpp:23-40, with setAtomCapacity(cap), 51-66, called once. *)
Definition dcl_new (cap : nat) : dclist :=
  DCL (V3 1 1 1)%Z (V3 0 0 0) (V3 0 0 0) (V3 0 0 0) (-1) [] [] [] [] (replicate cap None) 0 false.

(** ** makeGrid *)
(** Number of cells across the region along one axis, CellList.cpp:105-118. *)
Definition dd_axis (lower upper cutoff : R) (n : Z) : outcome Z :=
  let len := upper - lower in
  if Rlt_dec len 0 then Throw else if Rlt_dec len cutoff then Throw else Ok (Rtrunc (len * IZR n / cutoff)).
(** e[i + nCellCut][j], CellList.cpp:204-217; [q] is cellLengths_[j]/cutoffs[j]. *)
Definition dd_e (q : R) (i : Z) : R := if decide (i = 0)%Z then 0 else let r := q * IZR (Z.abs i - 1) in r * r.
(** The triple loop, CellList.cpp:248-257: for every relative cell (i, j, k) the offset, and whether e2 <= 1.0. *)
Definition dd_items (dims : vec3 Z) (q : vec3 R) (n : Z) : list (Z * bool) :=
  flat_map (fun i => flat_map (fun j => map (fun k =>
    ((i * (vz dims * vy dims) + j * vz dims + k)%Z,
     if Rle_dec (dd_e (vx q) i + dd_e (vy q) j + dd_e (vz q) k) 1 then true else false))
    (seqZ (- n) (2 * n + 1))) (seqZ (- n) (2 * n + 1))) (seqZ (- n) (2 * n + 1)).
(** FSArray::append (util, documented: throws when full) for Cell::OffsetArray, Cell.h:91-105: capacity 9 * 9 + 3. *)
Definition off_append (l : list (Z * Z)) (s : Z * Z) : outcome (list (Z * Z)) :=
  if decide (length l < 84)%nat then Ok (l ++ [s]) else Throw.
(** Body of the loop, CellList.cpp:257-284: offsets_, strip, isActive. *)
Definition dd_strip (x : list (Z * Z) * (Z * Z) * bool) (item : Z * bool) : outcome (list (Z * Z) * (Z * Z) * bool) :=
  let '(l, s, active) := x in
  let '(o, inside) := item in
  if (inside : bool) then
    if decide (o <> 0)%Z then
      if (active : bool) then
        if decide (o = s.2 + 1)%Z then Ok (l, (s.1, o), true)
        else let? l := off_append l s in Ok (l, (o, o), true)
      else Ok (l, (o, o), true)
    else if active then let? l := off_append l s in Ok (l, s, false) else Ok (l, s, false)
  else if active then let? l := off_append l s in Ok (l, s, false) else Ok (l, s, false).
(** offsets_, CellList.cpp:229-292. *)
Definition dd_offsets (dims : vec3 Z) (q : vec3 R) (n : Z) : outcome (list (Z * Z)) :=
  let? l := off_append [] (0, 0)%Z in
  let? x := foldM dd_strip (l, (0, 0)%Z, false) (dd_items dims q n) in
  let '(l, s, active) := x in
  if (active : bool) then off_append l s else Ok l.

(** GArray::resize (util, documented) of the array of cells; CellList.cpp:145; a new Cell is a ghost cell, Cell.cpp:15-22. *)
Definition dd_resize (l : list dcell) (k : nat) : list dcell := take k l ++ replicate (k - length l) (DCell 0 0 0 true).
(** Ranks of the local cells in the order of the loops, CellList.cpp:165-168. *)
Definition dd_locals (dims : vec3 Z) (n : Z) : list Z :=
  flat_map (fun i => flat_map (fun j => map (fun k => grid_rank dims (V3 i j k))
    (seqZ n (vz dims - 2 * n))) (seqZ n (vy dims - 2 * n))) (seqZ n (vx dims - 2 * n)).
(** cells_[ic].setIsGhostCell(b), Cell.cpp:27-28. *)
Definition set_ghost (b : bool) (c : dcell) : dcell := DCell (dcBegin c) (dcN c) (dcCap c) b.

(** CellList::makeGrid, CellList.cpp:73-294. *)
Definition dd_makeGrid (lower upper cutoffs : vec3 R) (n : Z) (s : dclist) : outcome dclist :=
  if decide (n < 1)%Z then Throw else
  if decide (4 < n)%Z then Throw else
  let? mx := dd_axis (vx lower) (vx upper) (vx cutoffs) n in
  let? my := dd_axis (vy lower) (vy upper) (vy cutoffs) n in
  let? mz := dd_axis (vz lower) (vz upper) (vz cutoffs) n in
  let len := V3 ((vx upper - vx lower) / IZR mx) ((vy upper - vy lower) / IZR my) ((vz upper - vz lower) / IZR mz) in
  let dims := V3 (mx + 2 * n)%Z (my + 2 * n)%Z (mz + 2 * n)%Z in
  let low := V3 (vx lower - IZR n * vx len) (vy lower - IZR n * vy len) (vz lower - IZR n * vz len) in
  let up := V3 (vx upper + IZR n * vx len) (vy upper + IZR n * vy len) (vz upper + IZR n * vz len) in
  let size := (vx (wGrid s) * vy (wGrid s) * vz (wGrid s))%Z in
  let isNew := bool_decide (size < 27)%Z || bool_decide (wCut s = -1)%Z || negb (bool_decide (wCut s = n)) ||
               negb (bool_decide (vx dims = vx (wGrid s))) || negb (bool_decide (vy dims = vy (wGrid s))) ||
               negb (bool_decide (vz dims = vz (wGrid s))) in
  let? (cells, loc) :=
    if (isNew : bool) then
      let cells := map (set_ghost true) (dd_resize (wCells s) (Z.to_nat (vx dims * vy dims * vz dims))) in
      let loc := dd_locals dims n in
      let? cells := foldM (fun l c => let? x := zget l c in zset l c (set_ghost false x)) cells loc in
      if decide (loc = []) then UB else Ok (cells, loc)
    else Ok (wCells s, wList s) in
  let? off := dd_offsets dims (V3 (vx len / vx cutoffs) (vy len / vy cutoffs) (vz len / vz cutoffs)) n in
  Ok (DCL dims len low up n off cells loc (wTags s) (wAtoms s) (wRej s) (wBuilt s)).

(** ** Filling the cells *)
(** The cell list with other contents of the arrays (CellList.h:315-363). *)
Definition dcl_put (s : dclist) (cells : list dcell) (tags : list (nat * Z)) (atoms : list (option nat)) (rej : nat) (built : bool) : dclist :=
  DCL (wGrid s) (wLen s) (wLow s) (wUp s) (wCut s) (wOff s) cells (wList s) tags atoms rej built.
(** grid_.size(): Util::Grid.  src/util, documented; used in ddMd/neighbor/CellList.cpp:39, 85. *)
Definition dd_size (s : dclist) : nat := Z.to_nat (vx (wGrid s) * vy (wGrid s) * vz (wGrid s)).
(** CellList::clear, CellList.cpp:299-315, with Cell::clear, Cell.h:278-283. *)
Definition dd_clear (s : dclist) : outcome dclist :=
  let? cells := foldM (fun l i => let? c := aget l i in aset l i (DCell 0 0 0 (dcGhost c))) (wCells s) (seq 0 (dd_size s)) in
  Ok (dcl_put s cells [] (wAtoms s) 0 false).
(** CellList::cellIndexFromPosition, CellList.h:372-386. *)
Definition dd_index (s : dclist) (p : vec3 R) : Z :=
  let out i := if Rle_dec (vget p i) (vget (wLow s) i) then true else if Rge_dec (vget p i) (vget (wUp s) i) then true else false in
  if out 0%nat then (-1)%Z else if out 1%nat then (-1)%Z else if out 2%nat then (-1)%Z else
  let r i := Rtrunc ((vget p i - vget (wLow s) i) / vget (wLen s) i) in
  grid_rank (wGrid s) (V3 (r 0%nat) (r 1%nat) (r 2%nat)).
(** CellList::placeAtom, CellList.h:391-405; [p] is atom.position(). *)
Definition dd_place (s : dclist) (a : nat) (p : vec3 R) : outcome dclist :=
  let rank := dd_index s p in
  if decide (0 <= rank)%Z then
    if decide (length (wTags s) < length (wAtoms s))%nat then
      let? c := zget (wCells s) rank in
      let? cells := zset (wCells s) rank (DCell (dcBegin c) (dcN c) (S (dcCap c)) (dcGhost c)) in
      Ok (dcl_put s cells (wTags s ++ [(a, rank)]) (wAtoms s) (wRej s) (wBuilt s))
    else UB
  else Ok (dcl_put s (wCells s) (wTags s) (wAtoms s) (S (wRej s)) (wBuilt s)).
(** Cell::initialize, Cell.h:285-293, for all cells: CellList.cpp:322-326. *)
Definition dd_initialize (cells : list dcell) (size : nat) : outcome (list dcell) :=
  let? x := foldM (fun x i => let '(l, ptr) := x in
    let? c := aget l i in
    let? l := aset l i (DCell ptr (dcN c) (dcCap c) (dcGhost c)) in Ok (l, (ptr + dcCap c)%nat)) (cells, 0%nat) (seq 0 size) in
  Ok x.1.
(** Cell::append, Cell.h:295-301. *)
Definition dd_append (x : list dcell * list (option nat)) (t : nat * Z) : outcome (list dcell * list (option nat)) :=
  let '(cells, atoms) := x in
  let? c := zget cells t.2 in
  let? atoms := aset atoms (dcBegin c + dcN c) (Some t.1) in
  let? cells := zset cells t.2 (DCell (dcBegin c) (S (dcN c)) (dcCap c) (dcGhost c)) in
  Ok (cells, atoms).
(** CellList::build, CellList.cpp:320-350. *)
Definition dd_build (s : dclist) : outcome dclist :=
  let? cells := dd_initialize (wCells s) (dd_size s) in
  let? (cells, atoms) := foldM dd_append (cells, wAtoms s) (wTags s) in
  Ok (dcl_put s cells (wTags s) atoms (wRej s) true).

(** CellList::setAtomCapacity, CellList.cpp:51-66, called if the capacity grows: PairPotential.cpp:201-205. *)
Definition dd_capacity (cap : nat) (s : dclist) : dclist :=
  if decide (length (wAtoms s) < cap)%nat then dcl_put s (wCells s) (wTags s) (replicate cap None) (wRej s) (wBuilt s) else s.
(** PairPotential::buildCellList, PairPotential.cpp:194-254, for [locals] and [ghosts] in the order of the iterators of the
    storage, with scaled positions [g]; [cap] is atomCapacity() + ghostCapacity() of the storage.  The checks that
    coordinates are scaled are left out. *)
Definition buildCellList (cap : nat) (lower upper cutoffs : vec3 R) (n : Z) (locals ghosts : list nat) (g : nat -> vec3 R) (s : dclist) : outcome dclist :=
  let? s := dd_makeGrid lower upper cutoffs n (dd_capacity cap s) in
  let? s := dd_clear s in
  let? s := foldM (fun s a => dd_place s a (g a)) s locals in
  let? s := foldM (fun s a => dd_place s a (g a)) s ghosts in
  let? s := dd_build s in
  let? _ := check (bool_decide (length (wTags s) + wRej s = length locals + length ghosts)%nat) in
  Ok s.

(** ** Neighbours *)
(** Cell.h:81. *)
Definition MaxNeighborAtom : nat := 2000.
(** neighbors.append for all CellAtoms from begin_ of cell [b] to the end of cell [e], Cell.cpp:68-72, 80-84, 98-102;
    FSArray of capacity MaxNeighborAtom, Cell.h:81, 110. *)
Definition nb_range (s : dclist) (b e : Z) (nb : list nat) : outcome (list nat) :=
  let? cb := zget (wCells s) b in
  let? ce := zget (wCells s) e in
  foldM (fun nb i => let? a := aget (wAtoms s) i in
    match a with
    | None => UB
    | Some a => if decide (length nb < MaxNeighborAtom)%nat then Ok (nb ++ [a]) else Throw
    end) nb (seq (dcBegin cb) (dcBegin ce + dcN ce - dcBegin cb)).
(** while (!bg) { ++cellBegin; bg = cellBegin->isGhostCell(); }, Cell.cpp:89-92; [d] is 1, or -1 for the loop over cellEnd,
    93-96.  [fuel] bounds the number of steps. *)
Fixpoint to_ghost (fuel : nat) (s : dclist) (d c : Z) : outcome Z :=
  match fuel with
  | O => UB
  | S fuel => let? x := zget (wCells s) c in if dcGhost x then Ok c else to_ghost fuel s d (c + d)%Z
  end.
(** Cell::getNeighbors, Cell.cpp:46-107. *)
Definition getNeighbors (s : dclist) (rev : bool) (c : Z) : outcome (list nat) :=
  foldM (fun nb st =>
    let b := (c + st.1)%Z in
    let e := (c + st.2)%Z in
    if decide (c <= b)%Z then nb_range s b e nb
    else if rev then Ok nb
    else
      let? cb := zget (wCells s) b in
      let? ce := zget (wCells s) e in
      if (dcGhost cb || dcGhost ce : bool) then
        let? b := to_ghost (S (length (wCells s))) s 1 b in
        let? e := to_ghost (S (length (wCells s))) s (-1) e in
        nb_range s b e nb
      else Ok nb) [] (wOff s).

(** For every primary atom in the order of the loops, the secondary atoms accepted: the loops common to countPairs,
    PairList.cpp:93-122, and build, 162-198.  [r] are the positions copied by cellList.update(), [masked] a b is
    atom a's mask().isMasked(b's id). *)
Definition dd_primary (s : dclist) (rev : bool) (cutoff : R) (r : nat -> vec3 R) (masked : nat -> nat -> bool) : outcome (list (nat * list nat)) :=
  foldM (fun acc c =>
    let? x := zget (wCells s) c in
    if decide (dcN x = 0)%nat then Ok acc else
    let? nb := getNeighbors s rev c in
    foldM (fun acc i =>
      let? a := aget nb i in
      Ok (acc ++ [(a, List.filter (fun b => (if Rlt_dec (normSq (vsub (r b) (r a))) (cutoff * cutoff) then true else false) && negb (masked a b))
                             (drop (S i) nb))])) acc (seq 0 (dcN x))) [] (wList s).

(** PairList.h:199-206: atom1Ptrs_, atom2Ptrs_, first_; the capacities of atom1Ptrs_ and atom2Ptrs_. *)
Record dplist := DPL { vA1 : list nat;  vA2 : list nat;  vFirst : list nat;  vCap1 : nat;  vCap2 : nat }.
(** PairList::PairList, PairList.cpp:23-33. *)
Definition dpl_new : dplist := DPL [] [] [] 0 0.
(** PairList::countPairs, PairList.cpp:72-126. *)
Definition countPairs (s : dclist) (rev : bool) (cutoff : R) (r : nat -> vec3 R) (masked : nat -> nat -> bool) : outcome nat :=
  let? _ := check (wBuilt s) in
  let? l := dd_primary s rev cutoff r masked in
  Ok (sum_list (map (fun x => length x.2) l)).
(** Body of the loop over primary atoms, PairList.cpp:171-193; GArray::append (util, documented) enlarges the array as
    needed. *)
Definition dpl_enter (p : dplist) (x : nat * list nat) : dplist :=
  let A2 := vA2 p ++ x.2 in
  if decide (x.2 = []) then p else DPL (vA1 p ++ [x.1]) A2 (vFirst p ++ [length A2]) (vCap1 p) (vCap2 p).
(** PairList::build, PairList.cpp:131-223. *)
Definition dpl_build (s : dclist) (rev : bool) (cutoff : R) (r : nat -> vec3 R) (masked : nat -> nat -> bool) (p : dplist) : outcome dplist :=
  let? _ := check (wBuilt s) in
  let? _ := check (bool_decide (0 < vCap1 p)%nat) in
  let? _ := check (bool_decide (0 < vCap2 p)%nat) in
  let? l := dd_primary s rev cutoff r masked in
  let p := fold_left dpl_enter l (DPL [] [] [0%nat] (vCap1 p) (vCap2 p)) in
  let? _ := if decide (length (vA1 p) = 0)%nat then Ok () else
    let? _ := check (bool_decide (length (vFirst p) = length (vA1 p) + 1)%nat) in
    let? f0 := aget (vFirst p) 0 in
    let? _ := check (bool_decide (f0 = 0)%nat) in
    let? f1 := aget (vFirst p) (length (vA1 p)) in
    check (bool_decide (f1 = length (vA2 p))%nat) in
  Ok (DPL (vA1 p) (vA2 p) (vFirst p) (Nat.max (vCap1 p) (length (vA1 p))) (Nat.max (vCap2 p) (length (vA2 p)))).
(** PairPotential::buildPairList, PairPotential.cpp:259-286; [capA] is storage().atomCapacity().  reserveAtoms and
    reservePairs, PairList.cpp:44-57, with GArray::reserve (util, documented: the capacity becomes at least the argument). *)
Definition buildPairList (capA : nat) (s : dclist) (rev : bool) (cutoff : R) (r : nat -> vec3 R) (masked : nat -> nat -> bool) (p : dplist) : outcome dplist :=
  let? _ := check (bool_decide (0 < capA)%nat) in
  let? _ := check (wBuilt s) in
  let p := DPL (vA1 p) (vA2 p) (vFirst p) (Nat.max capA (vCap1 p)) (vCap2 p) in
  let? p :=
    if decide (vCap2 p = 0)%nat then
      let? n := countPairs s rev cutoff r masked in
      Ok (DPL (vA1 p) (vA2 p) (vFirst p) (vCap1 p) (3 * n / 2))
    else Ok p in
  dpl_build s rev cutoff r masked p.

(** ** PairIterator *)
(** PairIterator.h:103-122. *)
Record dpiter := DIter { yA1 : list nat;  yA2 : list nat;  yFirst : list nat;  yN1 : nat;  yN2 : nat;  yI1 : nat;  yI2 : nat }.
(** PairIterator::PairIterator, PairIterator.h:133-141. *)
Definition dit_new : dpiter := DIter [] [] [] 0 0 0 0.
(** PairList::begin, PairList.cpp:228-239: nothing is done if the list is empty. *)
Definition dpl_begin (p : dplist) (i : dpiter) : dpiter :=
  if decide (length (vA1 p) = 0)%nat then i else DIter (vA1 p) (vA2 p) (vFirst p) (length (vA1 p)) (length (vA2 p)) 0 0.
(** notEnd, PairIterator.h:194-195. *)
Definition dit_end (i : dpiter) : bool := bool_decide (yI2 i = yN2 i).
(** getPair, PairIterator.h:159-167. *)
Definition dit_pair (i : dpiter) : outcome (nat * nat) := let? a := aget (yA1 i) (yI1 i) in let? b := aget (yA2 i) (yI2 i) in Ok (a, b).
(** operator++, PairIterator.h:172-183. *)
Definition dit_next (i : dpiter) : outcome dpiter :=
  let i2 := S (yI2 i) in
  let? f := aget (yFirst i) (yI1 i + 1) in
  Ok (DIter (yA1 i) (yA2 i) (yFirst i) (yN1 i) (yN2 i) (if decide (i2 = f) then S (yI1 i) else yI1 i) i2).
(** for (list.begin(iter); iter.notEnd(); ++iter) iter.getPair(...), as in ddMd/potentials/pair/PairPotentialImpl.h: the pairs
    seen and the iterator at the end, or None if [fuel] steps do not suffice. *)
Fixpoint dit_loop (fuel : nat) (i : dpiter) : outcome (option (list (nat * nat) * dpiter)) :=
  match fuel with
  | O => Ok None
  | S fuel => if dit_end i then Ok (Some ([], i)) else
      let? x := dit_pair i in let? i := dit_next i in let? r := dit_loop fuel i in
      Ok (match r with Some (l, i) => Some (x :: l, i) | None => None end)
  end.
