(** Model of McMd::PairList, PairIterator (src/mcMd/neighbor) and MdPairPotential::buildPairList, over real numbers.
    Atoms are their ids; positions are read through [pos], the exclusion mask through [masked i j] (atom i's mask applied
    to atom j, Mask.h).  The Boundary enters through lengths(), transformCartToGen, shift and distanceSq. *)
From Verif Require Import Base Vec3 McCellModel SpeciesModel CellListModel.
From Coq Require Import Reals.
Local Open Scope R_scope.

(** PairList.h:227-276.  [pInit] is isInitialized_. *)
Record plist := PL {
  pCells : clist;  pA1 : list (option nat);  pA2 : list (option nat);  pFirst : list Z;  pOld : list (vec3 R);
  pSkin : R;  pCut : R;  pAcap : Z;  pPcap : Z;  pN1 : Z;  pN2 : Z;  pN : Z;  pT : Z;
  pMaxN : Z;  pMaxN2 : Z;  pCount : Z;  pInit : bool
}.

(** The list with other arrays and counters (PairList.h:230-264). *)
Definition pl_put (p : plist) (a1 a2 : list (option nat)) (first : list Z) (old : list (vec3 R)) (n1 n2 n t : Z) : plist :=
  PL (pCells p) a1 a2 first old (pSkin p) (pCut p) (pAcap p) (pPcap p) n1 n2 n t (pMaxN p) (pMaxN2 p) (pCount p) (pInit p).
(** The list with another cell list (PairList.h:227). *)
Definition pl_cells (p : plist) (c : clist) : plist :=
  PL c (pA1 p) (pA2 p) (pFirst p) (pOld p) (pSkin p) (pCut p) (pAcap p) (pPcap p) (pN1 p) (pN2 p) (pN p) (pT p)
     (pMaxN p) (pMaxN2 p) (pCount p) (pInit p).

(** PairList::PairList, PairList.cpp:22-40, followed by readParameters, 51-56, with the given values. *)
Definition pl_read (acap pcap : Z) (skin : R) : plist :=
  PL (cl_new 0) [] [] [] [] skin (-1) acap pcap 0 0 0 0 0 0 0 false.

(** allocate, PairList.cpp:107-142. *)
Definition pl_allocate (p : plist) : outcome plist :=
  let? _ := check (bool_decide (0 < pAcap p)%Z) in
  let? _ := check (bool_decide (0 < pPcap p)%Z) in
  let? first := zset (replicate (Z.to_nat (pAcap p + 1)) (-1)%Z) 0 0%Z in
  let q := pl_put p (replicate (Z.to_nat (pAcap p)) None) (replicate (Z.to_nat (pPcap p)) None) first
                  (replicate (Z.to_nat (pAcap p)) (V3 0 0 0)) 0 0 0 (pAcap p - 1) in
  Ok (PL (pCells q) (pA1 q) (pA2 q) (pFirst q) (pOld q) (pSkin q) (pCut q) (pAcap q) (pPcap q) (pN1 q) (pN2 q) (pN q) (pT q)
         (pMaxN q) (pMaxN2 q) (pCount q) true).

(** initialize, PairList.cpp:88-102; CellList::setAtomCapacity, CellList.cpp:92-109, first call. *)
Definition pl_initialize (atomIdEnd : Z) (potentialCutoff : R) (p : plist) : outcome plist :=
  if Rle_dec (pSkin p) 0 then Throw else
  let? _ := check (bool_decide (0 < atomIdEnd)%Z) in
  pl_allocate (PL (cl_new (Z.to_nat atomIdEnd)) (pA1 p) (pA2 p) (pFirst p) (pOld p) (pSkin p) (potentialCutoff + pSkin p)
                  (pAcap p) (pPcap p) (pN1 p) (pN2 p) (pN p) (pT p) (pMaxN p) (pMaxN2 p) (pCount p) (pInit p)).

(** PairIterator.h:105-123. *)
Record piter := PIter { itA1 : list (option nat);  itA2 : list (option nat);  itFirst : list Z;  itN1 : Z;  itN2 : Z;
                        itI1 : Z;  itI2 : Z }.
(** PairList::begin, PairList.cpp:295-304. *)
Definition pl_begin (p : plist) : piter := PIter (pA1 p) (pA2 p) (pFirst p) (pN1 p) (pN2 p) 0 0.
(** isEnd, PairIterator.h:190-191. *)
Definition it_end (i : piter) : bool := bool_decide (itI2 i = itN2 i).
(** getPair, PairIterator.h:161-169. *)
Definition it_pair (i : piter) : outcome (option nat * option nat) :=
  let? a := zget (itA1 i) (itI1 i) in let? b := zget (itA2 i) (itI2 i) in Ok (a, b).
(** operator++, PairIterator.h:174-185. *)
Definition it_next (i : piter) : outcome piter :=
  let i2 := (itI2 i + 1)%Z in
  let? f := zget (itFirst i) (itI1 i + 1) in
  Ok (PIter (itA1 i) (itA2 i) (itFirst i) (itN1 i) (itN2 i) (if decide (i2 = f) then itI1 i + 1 else itI1 i)%Z i2).
(** for (begin(iter); iter.notEnd(); ++iter) iter.getPair(...): the pairs seen, or None if [fuel] steps do not suffice
    (MdPairPotentialImpl.h:351, 384, 420). *)
Fixpoint it_loop (fuel : nat) (i : piter) : outcome (option (list (option nat * option nat))) :=
  match fuel with
  | O => Ok None
  | S fuel => if it_end i then Ok (Some []) else
      let? x := it_pair i in let? i := it_next i in let? r := it_loop fuel i in Ok (cons x <$> r)
  end.

Section PairList.
  (** Cell::MaxAtomCell; transformCartToGen, distanceSq, shift and lengths of the boundary; the masks. *)
  Variables (M : nat) (toGen : vec3 R -> vec3 R) (dist2 : vec3 R -> vec3 R -> R) (wrap : vec3 R -> vec3 R) (lens : vec3 R).
  Variable masked : nat -> nat -> bool.

  (** setup, PairList.cpp:147-155, and clear, 160-168. *)
  Definition pl_reset (p : plist) : outcome plist :=
    let? first := zset (pFirst p) 0 0%Z in
    Ok (pl_put p (pA1 p) (pA2 p) first (pOld p) 0 0 0 (pAcap p - 1)).
  (** PairList.cpp:147-155. *)
  Definition pl_setup (p : plist) : outcome plist :=
    let? c := cl_setup M lens (pCut p) (pCells p) in pl_reset (pl_cells p c).
  (** PairList.cpp:160-168. *)
  Definition pl_clear (p : plist) : outcome plist := pl_reset (pl_cells p (cl_clear M (pCells p))).
  (** addAtom, PairList.h:355-356. *)
  Definition pl_add (p : plist) (a : nat) (pos : vec3 R) : outcome plist :=
    let? c := cl_add M toGen (pCells p) a pos in Ok (pl_cells p c).

  (** Body of the loop over jp, PairList.cpp:221-261. *)
  Definition pl_pair (pos : nat -> vec3 R) (i : nat) (s : plist * bool) (j : nat) : outcome (plist * bool) :=
    let (p, found) := s in
    if decide (i < j)%nat then
      if masked i j then Ok s else
      if Rlt_dec (dist2 (pos i) (pos j)) (pCut p * pCut p) then
        if decide (pPcap p <= pN2 p)%Z then Throw else
        let? p := if (found : bool) then Ok p else
                    let? a1 := zset (pA1 p) (pN1 p) (Some i) in
                    let? old := zset (pOld p) (pN1 p) (pos i) in
                    Ok (pl_put p a1 (pA2 p) (pFirst p) old (pN1 p) (pN2 p) (pN p) (pT p)) in
        let? a2 := zset (pA2 p) (pN2 p) (Some j) in
        Ok (pl_put p (pA1 p) a2 (pFirst p) (pOld p) (pN1 p) (pN2 p + 1) (pN p) (pT p), true)
      else Ok s
    else Ok s.
  (** Body of the loop over ip, PairList.cpp:208-277. *)
  Definition pl_atom (pos : nat -> vec3 R) (nb : list nat) (p : plist) (i : nat) : outcome plist :=
    let n := (pN p + 1)%Z in
    if decide (pAcap p < n)%Z then Throw else
    let p := pl_put p (pA1 p) (pA2 p) (pFirst p) (pOld p) (pN1 p) (pN2 p) n (pT p) in
    let? (p, found) := foldM (pl_pair pos i) (p, false) nb in
    if (found : bool) then
      let? first := zset (pFirst p) (pN1 p + 1) (pN2 p) in
      Ok (pl_put p (pA1 p) (pA2 p) first (pOld p) (pN1 p + 1) (pN2 p) (pN p) (pT p))
    else
      let? a1 := zset (pA1 p) (pT p) (Some i) in
      let? old := zset (pOld p) (pT p) (pos i) in
      Ok (pl_put p a1 (pA2 p) (pFirst p) old (pN1 p) (pN2 p) (pN p) (pT p - 1)).
  (** Body of the loop over cells, PairList.cpp:203-279. *)
  Definition pl_cell (pos : nat -> vec3 R) (p : plist) (ic : Z) : outcome plist :=
    let? (nb, nIn) := cell_neighbors M (pCells p) ic in
    foldM (fun p ip => let? i := aget nb ip in pl_atom pos nb p i) p (seq 0 nIn).
  (** build, PairList.cpp:173-290. *)
  Definition pl_build (pos : nat -> vec3 R) (p : plist) : outcome plist :=
    let? p := pl_reset p in
    let? p := foldM (pl_cell pos) p (seqZ 0 (clTot (pCells p))) in
    Ok (PL (pCells p) (pA1 p) (pA2 p) (pFirst p) (pOld p) (pSkin p) (pCut p) (pAcap p) (pPcap p) (pN1 p) (pN2 p) (pN p) (pT p)
           (Z.max (pMaxN p) (pN p)) (Z.max (pMaxN2 p) (pN2 p)) (pCount p + 1) (pInit p)).

  (** Position of atom [a] changed to [v].  Atom::position(), src/mcMd/chemistry/Atom.h. *)
  Definition move (pos : nat -> vec3 R) (a : nat) (v : vec3 R) : nat -> vec3 R :=
    fun b => if decide (b = a) then v else pos b.
  (** Body of the loop over atoms, MdPairPotential.cpp:55-62. *)
  Definition pl_enter (s : (nat -> vec3 R) * plist) (a : nat) : outcome ((nat -> vec3 R) * plist) :=
    let (pos, p) := s in
    let pos := move pos a (wrap (pos a)) in
    let? p := pl_add p a (pos a) in Ok (pos, p).
  (** MdPairPotential::buildPairList, MdPairPotential.cpp:39-68; [atoms] are the atoms of the system in the order of the
      loops over species, molecules and atoms. *)
  Definition pl_refresh (atoms : list nat) (pos : nat -> vec3 R) (p : plist) : outcome ((nat -> vec3 R) * plist) :=
    let? _ := check (pInit p) in
    let? p := pl_setup p in
    let? (pos, p) := foldM pl_enter (pos, p) atoms in
    let? p := pl_build pos p in
    Ok (pos, p).

  (** One of the loops of isCurrent over indices [ks], PairList.cpp:325-331 and 334-340; a null pointer is dereferenced
      if an element was never set. *)
  Fixpoint pl_cur (pos : nat -> vec3 R) (p : plist) (ks : list Z) : outcome bool :=
    match ks with
    | [] => Ok true
    | k :: ks =>
        let? a := zget (pA1 p) k in
        match a with
        | None => UB
        | Some a =>
            let? o := zget (pOld p) k in
            if Rgt_dec (dist2 (pos a) o) ((1/4) * pSkin p * pSkin p) then Ok false else pl_cur pos p ks
        end
    end.
  (** isCurrent, PairList.cpp:311-343. *)
  Definition pl_isCurrent (pos : nat -> vec3 R) (p : plist) : outcome bool :=
    if decide (pCount p = 0%Z) then Ok false else
    let? b := pl_cur pos p (seqZ 0 (pN1 p)) in
    if (b : bool) then pl_cur pos p (rev (seqZ (pT p + 1) (pAcap p - 1 - pT p))) else Ok false.
  (** clearStatistics, PairList.cpp:348-353. *)
  Definition pl_clearStatistics (p : plist) : plist :=
    PL (pCells p) (pA1 p) (pA2 p) (pFirst p) (pOld p) (pSkin p) (pCut p) (pAcap p) (pPcap p) (pN1 p) (pN2 p) (pN p) (pT p)
       0 0 0 (pInit p).
End PairList.
