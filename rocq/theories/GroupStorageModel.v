(** Model of DdMd::GroupStorage<N>: slots for groups, the set of groups in use, the
    reservoir and the look-up table by group id.  Of a group only the id is kept;
    its atoms are the subject of GroupModel. *)
From Verif Require Import Base Containers.

(** GroupStorage.h:441-477, members groups_ (ids), groupSet_, reservoir_, groupPtrs_,
    newPtr_.  Slots are numbered by their index in groups_. *)
Record gstorage := GStorage {
  gsIds : list Z;
  gsSet : list nat;
  gsRes : list nat;
  gsPtrs : list (option nat);
  gsNew : option nat
}.

(** GroupStorage.tpp:112-131 (allocate); Group() sets the id to -1
    (chemistry/Group.h). *)
Definition gs_init (cap total : nat) : gstorage :=
  GStorage (replicate cap (-1)%Z) [] (seq 0 cap) (replicate total None) None.

(** Element [id] of groupPtrs_ after the range test of GroupStorage.tpp:175 and 215. *)
Definition gs_in_range (s : gstorage) (id : Z) : bool :=
  ((0 <=? id) && (id <? Z.of_nat (length (gsPtrs s))))%Z.

(** GroupStorage.tpp:138-147.  Group<N>::clear sets the id to -1. *)
Definition gs_newPtr (s : gstorage) : res gstorage unit :=
  match gsNew s with
  | Some _ => RThrow s
  | None =>
      match stack_pop (gsRes s) with
      | Ok (n, r) => ROk (GStorage (<[n := (-1)%Z]> (gsIds s)) (gsSet s) r (gsPtrs s) (Some n)) tt
      | _ => RThrow s
      end
  end.

(** Client: newPtr()->setId(id); void when no record is handed out.  GroupStorage.tpp:200-206. *)
Definition gs_setId (s : gstorage) (id : Z) : res gstorage unit :=
  match gsNew s with
  | Some n => ROk (GStorage (<[n := id]> (gsIds s)) (gsSet s) (gsRes s) (gsPtrs s) (gsNew s)) tt
  | None => ROk s tt
  end.

(** GroupStorage.tpp:152-161. *)
Definition gs_returnPtr (s : gstorage) : res gstorage unit :=
  match gsNew s with
  | None => RThrow s
  | Some n =>
      let ids := <[n := (-1)%Z]> (gsIds s) in
      match stack_push (length (gsIds s)) (gsRes s) n with
      | Ok r => ROk (GStorage ids (gsSet s) r (gsPtrs s) None) tt
      | _ => RThrow (GStorage ids (gsSet s) (gsRes s) (gsPtrs s) (gsNew s))
      end
  end.

(** GroupStorage.tpp:166-194; the statistics member is left out. *)
Definition gs_add (s : gstorage) : res gstorage unit :=
  match gsNew s with
  | None => RThrow s
  | Some n =>
      match gsIds s !! n with
      | None => RUB
      | Some id =>
          if gs_in_range s id then
            match gsPtrs s !! Z.to_nat id with
            | None => RUB
            | Some (Some _) => RThrow s
            | Some None =>
                match set_append (gsSet s) n with
                | Ok l => ROk (GStorage (gsIds s) l (gsRes s)
                                        (<[Z.to_nat id := Some n]> (gsPtrs s)) None) tt
                | _ => RThrow s
                end
            end
          else RThrow s
      end
  end.

(** GroupStorage.tpp:199-206. *)
Definition gs_addId (s : gstorage) (id : Z) : res gstorage unit :=
  match gs_newPtr s with
  | ROk s1 _ => match gs_setId s1 id with
                | ROk s2 _ => gs_add s2
                | r => r
                end
  | r => r
  end.

(** GroupStorage.tpp:211-225; the argument is the address of slot [n].  The slot is
    pushed onto the reservoir before it is taken out of the set. *)
Definition gs_remove (s : gstorage) (n : nat) : res gstorage unit :=
  match gsIds s !! n with
  | None => RUB
  | Some id =>
      if gs_in_range s id then
        match gsPtrs s !! Z.to_nat id with
        | None => RUB
        | Some None => RThrow s
        | Some (Some _) =>
            match stack_push (length (gsIds s)) (gsRes s) n with
            | Ok r =>
                match set_remove (gsSet s) n with
                | Ok l => ROk (GStorage (<[n := (-1)%Z]> (gsIds s)) l r
                                 (<[Z.to_nat id := None]> (gsPtrs s)) (gsNew s)) tt
                | _ => RThrow (GStorage (gsIds s) (gsSet s) r (gsPtrs s) (gsNew s))
                end
            | _ => RThrow s
            end
        end
      else RThrow s
  end.

(** Loop of GroupStorage.tpp:235-241; [k] bounds the number of iterations. *)
Fixpoint gs_clear_loop (k : nat) (s : gstorage) : res gstorage unit :=
  match k with
  | 0 => ROk s tt
  | S k' =>
      match set_pop (gsSet s) with
      | Ok (n, l) =>
          match gsIds s !! n with
          | None => RUB
          | Some id =>
              if gs_in_range s id then
                let s1 := GStorage (<[n := (-1)%Z]> (gsIds s)) l (gsRes s)
                                   (<[Z.to_nat id := None]> (gsPtrs s)) (gsNew s) in
                match stack_push (length (gsIds s)) (gsRes s) n with
                | Ok r => gs_clear_loop k' (GStorage (gsIds s1) l r (gsPtrs s1) (gsNew s))
                | _ => RThrow s1
                end
              else RUB
          end
      | _ => ROk s tt
      end
  end.

(** GroupStorage.tpp:230-246. *)
Definition gs_clear (s : gstorage) : res gstorage unit :=
  match gs_clear_loop (length (gsSet s)) s with
  | ROk s' _ => if decide (length (gsSet s') = 0) then ROk s' tt else RThrow s'
  | r => r
  end.

(** GroupStorage.h:516-518: no range test. *)
Definition gs_find (s : gstorage) (id : Z) : outcome (option nat) :=
  if decide (0 <= id)%Z then aget (gsPtrs s) (Z.to_nat id) else UB.

(** Member functions of GroupStorage.h:150-215 a client calls. *)
Inductive gs_op :=
| GNew | GSetId (id : Z) | GReturn | GAdd | GAddId (id : Z) | GRemove (n : nat) | GClear.

(** GroupStorage.tpp:139-250. *)
Definition gs_step (s : gstorage) (o : gs_op) : res gstorage unit :=
  match o with
  | GNew => gs_newPtr s
  | GSetId id => gs_setId s id
  | GReturn => gs_returnPtr s
  | GAdd => gs_add s
  | GAddId id => gs_addId s id
  | GRemove n => gs_remove s n
  | GClear => gs_clear s
  end.

(** GroupStorage.tpp:255-291: [true] = returns, [false] = throws. *)
Definition gs_isValid (s : gstorage) : bool :=
  bool_decide (length (gsSet s) + length (gsRes s) = length (gsIds s)) &&
  forallb (fun ip => match ip.2 with
                     | Some n => bool_decide (gsIds s !! n = Some (Z.of_nat ip.1))
                     | None => true end) (imap pair (gsPtrs s)) &&
  forallb (fun n => match gsIds s !! n with
                    | Some id => bool_decide (gs_find s id = Ok (Some n))
                    | None => false end) (gsSet s).
