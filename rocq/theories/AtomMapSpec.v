(** What AtomMap is for: two sets of atoms, looked up by id. *)
From Verif Require Import Base AtomMapModel.
From stdpp Require Import gmap.

(** Abstract contents: local atoms and ghost atoms. *)
Record contents := Contents { locals : gset ptr; ghosts : gset ptr }.

Definition contents_step (c : contents) (o : map_op) : contents :=
  match o with
  | MAddLocal p => Contents ({[p]} ∪ locals c) (ghosts c)
  | MRemoveLocal p => Contents (locals c ∖ {[p]}) (ghosts c)
  | MAddGhost p => Contents (locals c) ({[p]} ∪ ghosts c)
  | MRemoveGhost p => Contents (locals c) (ghosts c ∖ {[p]})
  | MClearGhosts _ => Contents (locals c) ∅
  end.

(** Class preconditions that the code does not test: an added atom is not already
    present, a ghost is not removed as a local atom or the reverse, and clearGhosts
    is given the set of ghosts. *)
Definition map_pre (c : contents) (o : map_op) : Prop :=
  match o with
  | MAddLocal p | MAddGhost p => p ∉ locals c /\ p ∉ ghosts c
  | MRemoveLocal p => p ∉ ghosts c
  | MRemoveGhost p => p ∉ locals c
  | MClearGhosts gs => gs ≡ₚ elements (ghosts c)
  end.

(** [find] answers correctly: a local atom with that id if there is one, else a
    ghost with that id if there is one, else null. *)
Definition find_correct (idof : ptr -> Z) (c : contents) (id : Z) (r : option ptr) : Prop :=
  match r with
  | Some p => idof p = id /\
      (p ∈ locals c \/ p ∈ ghosts c /\ forall q, q ∈ locals c -> idof q <> id)
  | None => forall q, q ∈ locals c ∪ ghosts c -> idof q <> id
  end.

(** A history, run on the model and on the abstract contents together.  A call
    that throws leaves the map unchanged (in AtomMap.cpp every throw precedes the
    first assignment) and the history goes on.  [None] = undefined behaviour. *)
Fixpoint map_run idof choose (m : amap) (c : contents) (ops : list map_op)
  : option (amap * contents) :=
  match ops with
  | [] => Some (m, c)
  | o :: ops' =>
      match map_step idof choose m o with
      | Ok m' => map_run idof choose m' (contents_step c o) ops'
      | Throw => map_run idof choose m c ops'
      | UB => None
      end
  end.

(** Every call of the history satisfies its precondition. *)
Fixpoint respects idof choose (m : amap) (c : contents) (ops : list map_op) : Prop :=
  match ops with
  | [] => True
  | o :: ops' =>
      map_pre c o /\
      match map_step idof choose m o with
      | Ok m' => respects idof choose m' (contents_step c o) ops'
      | Throw => respects idof choose m c ops'
      | UB => True
      end
  end.
