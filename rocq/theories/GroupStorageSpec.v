(** What a user of GroupStorage relies on. *)
From Verif Require Import Base GroupStorageModel.

(** A history in which the exceptions are caught and work goes on; [None] =
    undefined behaviour.  [allowed] is the client's side of the contract. *)
Fixpoint gs_run (s : gstorage) (ops : list gs_op) : option gstorage :=
  match ops with
  | [] => Some s
  | o :: ops' =>
      match gs_step s o with
      | ROk s' _ | RThrow s' => gs_run s' ops'
      | RUB => None
      end
  end.

(** remove is given the address of one of the storage's slots, and not of the
    record that newPtr handed out and that is not yet added. *)
Definition gs_pre (cap : nat) (s : gstorage) (o : gs_op) : Prop :=
  match o with GRemove n => n < cap /\ gsNew s <> Some n | _ => True end.

Fixpoint gs_respects (cap : nat) (s : gstorage) (ops : list gs_op) : Prop :=
  match ops with
  | [] => True
  | o :: ops' =>
      gs_pre cap s o /\
      match gs_step s o with
      | ROk s' _ | RThrow s' => gs_respects cap s' ops'
      | RUB => True
      end
  end.

(** Every slot is in exactly one place. *)
Definition gs_conserved (cap : nat) (s : gstorage) : Prop :=
  option_list (gsNew s) ++ gsRes s ++ gsSet s ≡ₚ seq 0 cap.

(** The slots in use and their ids. *)
Definition gs_holds (s : gstorage) (n : nat) (id : Z) : Prop :=
  n ∈ gsSet s /\ gsIds s !! n = Some id.

(** find answers with the group in use that has this id, or null if there is none. *)
Definition gs_find_correct (s : gstorage) (id : Z) (r : option nat) : Prop :=
  match r with
  | Some n => gs_holds s n id
  | None => forall n, ~ gs_holds s n id
  end.
