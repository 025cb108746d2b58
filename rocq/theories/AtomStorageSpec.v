(** What a user of AtomStorage relies on. *)
From Verif Require Import Base AtomMapModel AtomMapSpec AtomStorageModel.
From stdpp Require Import gmap.

(** Every slot is in exactly one place: handed out, in the reservoir, or in use. *)
Definition slots_conserved (capA capG : nat) (s : storage) : Prop :=
  option_list (newA s) ++ aRes s ++ aSet s ≡ₚ seq 0 capA /\
  option_list (newG s) ++ gRes s ++ gSet s ≡ₚ seq 0 capG.

(** The atoms in use, as seen through the iterators. *)
Definition st_contents (s : storage) : contents :=
  Contents (list_to_set (map PL (aSet s))) (list_to_set (map PG (gSet s))).

(** Operations refer to existing slots only. *)
Definition st_op_ok (capA capG : nat) (o : st_op) : Prop :=
  match o with
  | ORemoveAtom n => n < capA
  | ORemoveGhost n => n < capG
  | _ => True
  end.

(** Operations that change the number of atoms or ghosts in use. *)
Definition st_counts (s : storage) : nat * nat := (length (aSet s), length (gSet s)).
