(** Property C08: an MC cell holds exactly the atoms added and not deleted. *)
From Verif Require Import Base McCellModel McCellSpec McCellProofs.
From stdpp Require Import gmap.

(** C08, what is true: as long as the history respects the class preconditions and
    the cell never holds more than MaxAtomCell - 1 atoms, no call throws and the
    cell represents exactly the set of atoms added and not deleted. *)
Theorem mc_cell_holds_its_atoms_partial :
  forall M ops, 0 < M -> proper (M - 1) ∅ ops ->
  exists t, run (cell_step M) (cell_init M) ops = Ok t /\ represents t (held ∅ ops).
Proof.
  intros M ops HM Hp.
  destruct (inv_run M HM ops _ _ (inv_init M HM) Hp) as (t & Hr & I).
  exists t. split; [exact Hr | exact (inv_represents M HM _ _ I)].
Qed.

Example mc_cell_example :
  proper (4 - 1) ∅ [AddAtom 7; AddAtom 8; DelAtom 7; AddAtom 9; AddAtom 7].
Proof. repeat split; try set_solver; vm_compute; lia. Qed.

(** C08 in full is false.  With MaxAtomCell = 61 (production value), the history
    "fill the cell with atoms 0..60, delete atom 0, add 61, add 62" respects the
    preconditions, does not throw (although the cell is full before the last
    call), and loses an atom: atom 61 was added and never deleted, but scanning
    the cell does not find it and nAtomCell() exceeds MaxAtomCell. *)
Definition overfill : list cell_op :=
  map AddAtom (seq 0 61) ++ [DelAtom 0; AddAtom 61; AddAtom 62].

Theorem mc_cell_overfill_refuted :
  exists t, proper 62 ∅ overfill /\
    run (cell_step 61) (cell_init 61) overfill = Ok t /\
    61 ∈ held ∅ overfill /\ 61 ∉ cell_atoms (tcell t) /\
    ncell (tcell t) = 62%Z.
Proof.
  destruct (run (cell_step 61) (cell_init 61) overfill) as [t| |] eqn:E;
    [|vm_compute in E; discriminate..].
  exists t. split; [|split; [done|]].
  - clear t E. assert (H : bool_decide (proper 62 ∅ overfill) = true)
      by (vm_compute; reflexivity).
    by apply bool_decide_eq_true in H.
  - assert (H : t = match run (cell_step 61) (cell_init 61) overfill with Ok t => t | _ => cell_init 61 end)
      by (by rewrite E).
    split; [|split].
    + assert (Hb : bool_decide (61 ∈ held ∅ overfill) = true) by (vm_compute; reflexivity).
      by apply bool_decide_eq_true in Hb.
    + subst t. assert (Hb : bool_decide (61 ∈ cell_atoms (tcell (match run (cell_step 61) (cell_init 61) overfill with Ok t => t | _ => cell_init 61 end))) = false)
        by (vm_compute; reflexivity).
      by apply bool_decide_eq_false in Hb.
    + subst t. vm_compute. reflexivity.
Qed.

Print Assumptions mc_cell_holds_its_atoms_partial.
Print Assumptions mc_cell_overfill_refuted.
