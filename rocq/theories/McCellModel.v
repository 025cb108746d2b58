(** Model of McMd::Cell: a fixed array of atom pointers with two cursors. *)
From Verif Require Import Base.
From stdpp Require Import gmap.

(** Cell.h:124-133.  An atom pointer is the atom id; a null pointer is [None].
    [slots] is atoms_[MaxAtomCell], [ncell] is nAtomCell_, [fe] is firstEmptyPos_,
    [fc] is firstClearPos_. *)
Record cell := Cell {
  slots : list (option nat);
  ncell : Z;
  fe : nat;
  fc : nat
}.

Section Cell.
  (** MaxAtomCell (Cell.h:46-50: 61, or 253 with SIMP_COULOMB). *)
  Variable M : nat.

  (** Cell.cpp:25-33, clear() (also the constructor, Cell.cpp:19-20). *)
  Definition cell_clear : cell := Cell (replicate M None) 0 0 0.

  (** Cell.h:165-169: from index [k-1] downwards while the slot is empty; returns
      [i+1] for the final i. *)
  Fixpoint scan_down (l : list (option nat)) (k : nat) : nat :=
    match k with
    | 0 => 0
    | S i => match l !! i with
             | Some (Some _) => S i
             | _ => scan_down l i
             end
    end.

  (** Cell.h:212-217: first empty index among [k, ..., k+n-1]. *)
  Fixpoint scan_up (l : list (option nat)) (k n : nat) : option nat :=
    match n with
    | 0 => None
    | S n' => match l !! k with
              | Some None => Some k
              | _ => scan_up l (S k) n'
              end
    end.

  (** Cell.h:150-176, deleteAtom; [pos] is cellTag.cellPos.  Resetting the tag is
      the business of the caller's tag table below. *)
  Definition cell_delete (c : cell) (pos : nat) : outcome cell :=
    let? s := aset (slots c) pos None in
    let fe' := if decide (pos < fe c) then pos else fe c in
    Ok (Cell s (ncell c - 1) fe' (scan_down s (fc c))).

  (** Cell.h:181-233, addAtom.  Returns the new cell and the position recorded in
      the atom's CellTag. *)
  Definition cell_add (c : cell) (a : nat) : outcome (cell * nat) :=
    if decide (fe c = M) then Throw else
    let? s := aset (slots c) (fe c) (Some a) in
    let pos := fe c in
    Ok (
      (if decide (fe c < M - 1) then
         if decide (fe c = fc c) then Cell s (ncell c + 1) (fe c + 1) (fc c + 1)
         else
           (* loop i = firstEmptyPos_+1 .. M-1; without a hit firstEmptyPos_ keeps
              its value *)
           match scan_up s (fe c + 1) (M - (fe c + 1)) with
           | Some i => Cell s (ncell c + 1) i (fc c)
           | None => Cell s (ncell c + 1) (fe c) (fc c)
           end
       else Cell s (ncell c + 1) M M), pos).

  (** What CellList and its clients see: the atoms found by the loop
      [for (jp = 0; jp < firstClearPos(); ++jp) if (atomPtr(jp) != 0) ...]
      (CellList.cpp:167-174 and 195-201). *)
  Definition cell_atoms (c : cell) : list nat := omap id (take (fc c) (slots c)).

  (** A cell together with the CellTag positions of its atoms
      (CellTag.h: cellPos; absent = NullIndex). *)
  Record tagged := Tagged { tcell : cell; tags : gmap nat nat }.

  (** Cell.h:157, 188. *)
  Inductive cell_op := AddAtom (a : nat) | DelAtom (a : nat).

  (** CellList.h:385-403: addAtom / deleteAtom for one cell; deleting an atom whose
      tag is null would index atoms_[-1]. *)
  Definition cell_step (t : tagged) (o : cell_op) : outcome tagged :=
    match o with
    | AddAtom a =>
        let? (c, p) := cell_add (tcell t) a in
        Ok (Tagged c (<[a := p]> (tags t)))
    | DelAtom a =>
        match tags t !! a with
        | None => UB
        | Some p => let? c := cell_delete (tcell t) p in
                    Ok (Tagged c (delete a (tags t)))
        end
    end.

  (** Cell::clear, Cell.cpp:25, and the null tags of CellTag.h. *)
  Definition cell_init : tagged := Tagged cell_clear ∅.
End Cell.
