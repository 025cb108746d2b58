(** Independent specification of a cell: a set of atoms. *)
From Verif Require Import Base McCellModel.
From stdpp Require Import gmap.

Definition held_step (h : gset nat) (o : cell_op) : gset nat :=
  match o with AddAtom a => {[a]} ∪ h | DelAtom a => h ∖ {[a]} end.

(** Atoms added and not yet deleted. *)
Definition held (h : gset nat) (ops : list cell_op) : gset nat := fold_left held_step ops h.

(** Histories that respect the preconditions of the class - an atom is added only
    when absent and deleted only when present - and in which the cell never holds
    more than [N] atoms. *)
Fixpoint proper (N : nat) (h : gset nat) (ops : list cell_op) : Prop :=
  match ops with
  | [] => True
  | o :: ops' =>
      match o with
      | AddAtom a => a ∉ h /\ size h < N
      | DelAtom a => a ∈ h
      end /\ proper N (held_step h o) ops'
  end.

(** The cell represents the set [h]. *)
Definition represents (t : tagged) (h : gset nat) : Prop :=
  cell_atoms (tcell t) ≡ₚ elements h /\
  ncell (tcell t) = Z.of_nat (size h) /\
  forall a p, tags t !! a = Some p <-> slots (tcell t) !! p = Some (Some a).

Global Instance proper_dec N h ops : Decision (proper N h ops).
Proof.
  revert h. induction ops as [|[a|a] ops IH]; intros h; simpl; apply _.
Defined.
