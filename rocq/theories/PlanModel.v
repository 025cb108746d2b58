(** Model of DdMd::Plan: twelve flags in one unsigned int, and its text form. *)
From Verif Require Import Base.
From Coq Require Import Ascii NArith.
Local Open Scope N_scope.

(** The raw word [flags_].  Plan.h:129 (unsigned int; only the 14 low bits are
    ever touched by masks, so the width of the C++ type plays no role). *)
Definition plan := N.

(** Plan.cpp:14, table GMask.  Indices outside i<3, j<2 are out of range in C++
    (precondition of every member function); the model returns mask 0 there. *)
Definition gmask (i j : nat) : N :=
  match i, j with
  | 0%nat, 0%nat => 0x0001 | 0%nat, 1%nat => 0x0002
  | 1%nat, 0%nat => 0x0004 | 1%nat, 1%nat => 0x0008
  | 2%nat, 0%nat => 0x0010 | 2%nat, 1%nat => 0x0020
  | _, _ => 0
  end.

(** Plan.cpp:15, table EMask. *)
Definition emask (i j : nat) : N :=
  match i, j with
  | 0%nat, 0%nat => 0x0100 | 0%nat, 1%nat => 0x0200
  | 1%nat, 0%nat => 0x0400 | 1%nat, 1%nat => 0x0800
  | 2%nat, 0%nat => 0x1000 | 2%nat, 1%nat => 0x2000
  | _, _ => 0
  end.

(** Plan.h:55-57, constructor. *)
Definition new_plan : plan := 0.
(** Plan.h:65-66. *)
Definition setExchange (p : plan) (i j : nat) : plan := N.lor p (emask i j).
(** Plan.h:74-75; [flags & ~mask]. *)
Definition clearExchange (p : plan) (i j : nat) : plan := N.ldiff p (emask i j).
(** Plan.h:83-84. *)
Definition setGhost (p : plan) (i j : nat) : plan := N.lor p (gmask i j).
(** Plan.h:92-93. *)
Definition clearGhost (p : plan) (i j : nat) : plan := N.ldiff p (gmask i j).
(** Plan.h:98-99. *)
Definition setFlags (p : plan) (f : N) : plan := f.
(** Plan.h:104-105. *)
Definition clearFlags (p : plan) : plan := 0.
(** Plan.h:113-114; [bool(flags_ & mask)]. *)
Definition exchange (p : plan) (i j : nat) : bool :=
  negb (N.eqb (N.land p (emask i j)) 0).
(** Plan.h:122-123. *)
Definition ghost (p : plan) (i j : nat) : bool :=
  negb (N.eqb (N.land p (gmask i j)) 0).

(** One call of a mutating member function; used to speak about histories.  Plan.h:66-106. *)
Inductive plan_op :=
| SetExchange (i j : nat) | ClearExchange (i j : nat)
| SetGhost (i j : nat) | ClearGhost (i j : nat)
| ClearFlags.

(** Dispatch of [plan_op] to the member functions above (Plan.h:65-105). *)
Definition plan_step (p : plan) (o : plan_op) : plan :=
  match o with
  | SetExchange i j => setExchange p i j
  | ClearExchange i j => clearExchange p i j
  | SetGhost i j => setGhost p i j
  | ClearGhost i j => clearGhost p i j
  | ClearFlags => clearFlags p
  end.

(** ** Text form *)

(** Plan.cpp:58-90. *)
Definition bit_char (b : bool) : ascii := if b then "1"%char else "0"%char.

(** Plan.cpp:58-82, operator <<.  Six characters, two blanks, six characters;
    the text is a list of characters. *)
Definition plan_out (p : plan) : list ascii :=
  flat_map (fun i => List.map (fun j => bit_char (exchange p i j)) [0%nat;1%nat]) [0%nat;1%nat;2%nat]
  ++ [" "%char; " "%char]
  ++ flat_map (fun i => List.map (fun j => bit_char (ghost p i j)) [0%nat;1%nat]) [0%nat;1%nat;2%nat].

(** [in >> string] of the C++ library: skip blanks, then take the characters up
    to the next blank.  (Blank = space; other white space does not occur.).  Used in Plan.cpp:22-53. *)
Fixpoint skip_blank (s : list ascii) : list ascii :=
  match s with
  | c :: s' => if Ascii.eqb c " " then skip_blank s' else s
  | [] => []
  end.
(** Used in Plan.cpp:22-53. *)
Fixpoint take_word (s : list ascii) : list ascii * list ascii :=
  match s with
  | c :: s' => if Ascii.eqb c " " then ([], s)
               else let '(w, r) := take_word s' in (c :: w, r)
  | [] => ([], [])
  end.
(** Used in Plan.cpp:22-53. *)
Definition read_word (s : list ascii) : list ascii * list ascii :=
  take_word (skip_blank s).

(** [string[k]] of std::string: the element, the terminating NUL at k = size,
    undefined beyond that.  Used in Plan.cpp:22-53. *)
Definition str_at (w : list ascii) (k : nat) : outcome ascii :=
  match w !! k with
  | Some c => Ok c
  | None => if Nat.eqb k (length w) then Ok Ascii.zero else UB
  end.

(** Body of the innermost loop, Plan.cpp:30-34. *)
Definition read_exchange_at (w : list ascii) (p : plan) (k i j : nat) : outcome plan :=
  let? c := str_at w k in
  Ok (if Ascii.eqb c "1" then setExchange p i j
      else if Ascii.eqb c "0" then clearExchange p i j else p).

(** Plan.cpp:44-48. *)
Definition read_ghost_at (w : list ascii) (p : plan) (k i j : nat) : outcome plan :=
  let? c := str_at w k in
  Ok (if Ascii.eqb c "1" then setGhost p i j
      else if Ascii.eqb c "0" then clearGhost p i j else p).

(** Plan.cpp:27-37: the first loop nest; [++k] is inside the loop over j. *)
Definition read_exchange_word (w : list ascii) (p : plan) : outcome plan :=
  let? p := read_exchange_at w p 0 0 0 in
  let? p := read_exchange_at w p 1 0 1 in
  let? p := read_exchange_at w p 2 1 0 in
  let? p := read_exchange_at w p 3 1 1 in
  let? p := read_exchange_at w p 4 2 0 in
  read_exchange_at w p 5 2 1.

(** Plan.cpp:40-51: the second loop nest; [++k] is outside the loop over j, so
    the same character is used for j = 0 and j = 1. *)
Definition read_ghost_word (w : list ascii) (p : plan) : outcome plan :=
  let? p := read_ghost_at w p 0 0 0 in
  let? p := read_ghost_at w p 0 0 1 in
  let? p := read_ghost_at w p 1 1 0 in
  let? p := read_ghost_at w p 1 1 1 in
  let? p := read_ghost_at w p 2 2 0 in
  read_ghost_at w p 2 2 1.

(** Plan.cpp:22-53, operator >> applied to an existing plan. *)
Definition plan_in (s : list ascii) (p : plan) : outcome (plan * list ascii) :=
  let '(w1, s1) := read_word s in
  let? p1 := read_exchange_word w1 p in
  let '(w2, s2) := read_word s1 in
  let? p2 := read_ghost_word w2 p1 in
  Ok (p2, s2).
