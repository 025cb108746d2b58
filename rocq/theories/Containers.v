(** Containers of src/util used by several classes.  The submodule src/util is
    empty in /repo; these follow the documented behaviour of Util::ArraySet and
    Util::ArrayStack (listed in the trusted base of DESIGN.md).  Elements are the
    indices of the objects in the underlying array. *)
From Verif Require Import Base.

(** ArraySet::append: throws if the object is already in the set.  util/containers/ArraySet.h, documented. *)
Definition set_append (l : list nat) (x : nat) : outcome (list nat) :=
  if decide (x ∈ l) then Throw else Ok (l ++ [x]).

(** ArraySet::remove: the last element takes the place of the removed one; throws
    if the object is not in the set.  util/containers/ArraySet.h, documented. *)
Definition set_remove (l : list nat) (x : nat) : outcome (list nat) :=
  match list_find (x =.) l, last l with
  | Some (i, _), Some y => Ok (take (length l - 1) (<[i := y]> l))
  | _, _ => Throw
  end.

(** ArraySet::pop: removes and returns the last element; throws if empty.  util/containers/ArraySet.h, documented. *)
Definition set_pop (l : list nat) : outcome (nat * list nat) :=
  match last l with
  | Some y => Ok (y, take (length l - 1) l)
  | None => Throw
  end.

(** ArrayStack::push / pop with the top of the stack at the head; push throws when
    the stack is full, pop when it is empty.  util/containers/ArrayStack.h, documented. *)
Definition stack_push (cap : nat) (l : list nat) (x : nat) : outcome (list nat) :=
  if decide (length l < cap) then Ok (x :: l) else Throw.
(** util/containers/ArrayStack.h, documented. *)
Definition stack_pop (l : list nat) : outcome (nat * list nat) :=
  match l with x :: l' => Ok (x, l') | [] => Throw end.

Lemma last_take {A} (l : list A) y : last l = Some y -> take (length l - 1) l ++ [y] = l.
Proof.
  intros H. apply last_Some in H as [l' ->].
  rewrite app_length; simpl. replace (length l' + 1 - 1) with (length l') by lia.
  by rewrite take_app.
Qed.

Lemma set_append_perm l x l' : set_append l x = Ok l' -> l' ≡ₚ x :: l /\ x ∉ l.
Proof.
  unfold set_append. case_decide; [done|]. intros [= <-]. split; [|done].
  by rewrite Permutation_app_comm.
Qed.

Lemma set_pop_perm l x l' : set_pop l = Ok (x, l') -> l = l' ++ [x].
Proof.
  unfold set_pop. destruct (last l) eqn:E; [|done]. intros [= <- <-]. by rewrite last_take.
Qed.

Lemma set_pop_Ok l : l <> [] -> exists x l', set_pop l = Ok (x, l').
Proof.
  unfold set_pop. intros H. destruct (last l) eqn:E; [eauto|]. apply last_None in E. done.
Qed.

Lemma set_remove_perm l x l' : set_remove l x = Ok l' -> x :: l' ≡ₚ l.
Proof.
  unfold set_remove. destruct (list_find (x =.) l) as [[i z]|] eqn:F; [|done].
  destruct (last l) as [y|] eqn:E; [|done]. intros [= <-].
  apply list_find_Some in F as (Hi & <- & _).
  apply last_Some in E as [l0 ->]. rewrite app_length. simpl.
  replace (length l0 + 1 - 1) with (length l0) by lia.
  destruct (decide (i < length l0)) as [Hlt|Hge].
  - rewrite insert_app_l by done.
    rewrite take_app_alt by (by rewrite insert_length).
    rewrite lookup_app_l in Hi by done.
    rewrite <- (take_drop_middle l0 i x Hi) at 2.
    rewrite insert_take_drop by done.
    rewrite <- !app_assoc. simpl.
    rewrite <- Permutation_middle. rewrite <- Permutation_middle. f_equiv.
    rewrite (Permutation_app_comm (drop (S i) l0) [y]). simpl.
    by rewrite <- Permutation_middle.
  - apply lookup_lt_Some in Hi as Hlt. rewrite app_length in Hlt. simpl in Hlt.
    assert (i = length l0) as -> by lia.
    rewrite list_lookup_middle in Hi by done. injection Hi as ->.
    rewrite list_insert_id by (by rewrite list_lookup_middle).
    rewrite take_app. by rewrite Permutation_app_comm.
Qed.

Lemma set_remove_Ok l x : x ∈ l -> exists l', set_remove l x = Ok l'.
Proof.
  intros H. unfold set_remove.
  destruct (list_find (x =.) l) as [[i z]|] eqn:F.
  - destruct (last l) eqn:E; [eauto|]. apply last_None in E. subst. by apply elem_of_nil in H.
  - apply list_find_None in F. rewrite Forall_forall in F. by apply F in H.
Qed.
