(** Model of DdMd::AtomCollector (src/ddMd/communicate/AtomCollector.cpp) and DdMd::GroupCollector<N> (GroupCollector.tpp): the master asks
    one processor after the other for blocks of items.  One model serves for both: [keep] is the test of GroupCollector, whether atom 0 of a
    group is a local atom of the processor; AtomCollector keeps all items.  [sz] gives the bytes of an item, [bcap] is the
    capacity of the buffer in bytes, [pcap] the most items of a block (atomCapacity() or groupCapacity<N>()), [rcap] is recvArrayCapacity_.  That unpacking gives what
    was packed is the subject of BufferModel (C21). *)
From Verif Require Import Base Containers SpeciesModel.
Local Open Scope nat_scope.

Section collector.
  Context {A : Type} (keep : A -> bool) (sz : A -> nat) (bcap pcap rcap : nat).

  (** The loop of send that packs one block, AtomCollector.cpp:230-239, GroupCollector.tpp:255-270: [k] items and [bytes] bytes are in the buffer, [l] are the items
      from the iterator to the end of the storage; the block and the remaining items. *)
  Fixpoint fill (k bytes : nat) (l : list A) : outcome (list A * list A) :=
    match l with
    | [] => Ok ([], [])
    | x :: l' =>
        if decide (k < pcap) then
          if keep x then
            if decide (bcap < bytes + sz x) then Throw
            else let? (blk, rest) := fill (S k) (bytes + sz x) l' in Ok (x :: blk, rest)
          else fill k bytes l'
        else Ok ([], l)
    end.
  (** One round of the loop of send, AtomCollector.cpp:222-247, GroupCollector.tpp:245-277: the block, the flag isComplete_, the items left. *)
  Definition reply (l : list A) : outcome (list A * bool * list A) :=
    let? (blk, rest) := fill 0 16 l in Ok (blk, match rest with [] => true | _ => false end, rest).

  (** Members of the collector on the master, AtomCollector.h:130-160: source_, the items still in the buffer (recvBufferSize_ is their
      number), recvArray_ up to recvArraySize_, recvArrayId_, isComplete_, the items from iterator_ to the end; and for every other processor the items it still has
      to send, or [None] if it has returned from send. *)
  Record coll := Coll { cSource : nat; cBuf : list A; cArr : list A; cId : nat; cDone : bool; cIter : list A; cSlaves : list (option (list A)) }.
  (** Size of the grid.  domainPtr_->grid().size(), AtomCollector.cpp:151, GroupCollector.tpp:166. *)
  Definition cGrid (c : coll) : nat := S (length (cSlaves c)).

  (** setup, AtomCollector.cpp:70-102, GroupCollector.tpp:75-107, with all other processors at the beginning of send (AtomCollector.cpp:220-222); [stores] are the
      items of all processors, the master's first. *)
  Definition coll_setup (stores : list (list A)) : outcome coll :=
    match stores with
    | [] => UB
    | m :: ss => let? _ := check (negb (bool_decide (rcap = 0))) in Ok (Coll 0 [] [] 0 false m (map Some ss))
    end.

  (** Request to the processor source_ and its answer, AtomCollector.cpp:155-165, GroupCollector.tpp:174-183.  [None]: the master waits forever for
      a processor that has returned from send. *)
  Definition ask (c : coll) : outcome (option coll) :=
    match cSource c with
    | 0 => Throw
    | S i =>
        match cSlaves c !! i with
        | Some (Some l) =>
            let? (blk, complete, rest) := reply l in
            Ok (Some (Coll (cSource c) blk (cArr c) (cId c) complete (cIter c) (<[i := if (complete : bool) then None else Some rest]> (cSlaves c))))
        | _ => Ok None
        end
    end.
  (** The loop while (recvArrayId_ == recvArraySize_) and the return of an item, AtomCollector.cpp:137-197, GroupCollector.tpp:157-203; at most [fuel]
      rounds, [None]: it does not return. *)
  Fixpoint next_loop (fuel : nat) (c : coll) : outcome (option (option A * coll)) :=
    match fuel with
    | 0 => Ok None
    | S fuel =>
        if decide (cId c = length (cArr c)) then
          let? oc :=
            if decide (length (cBuf c) = 0) then
              if cDone c then
                let s := S (cSource c) in
                if decide (s = cGrid c) then Ok (Some (Coll 0 (cBuf c) [] 0 false (cIter c) (cSlaves c), true))
                else let? o := ask (Coll s (cBuf c) [] 0 false (cIter c) (cSlaves c)) in Ok (option_map (fun c => (c, false)) o)
              else let? o := ask c in Ok (option_map (fun c => (c, false)) o)
            else Ok (Some (c, false)) in
          match oc with
          | None => Ok None
          | Some (c, true) => Ok (Some (None, c))
          | Some (c, false) =>
              next_loop fuel
                (if decide (0 < length (cBuf c)) then
                   Coll (cSource c) (drop rcap (cBuf c)) (take rcap (cBuf c)) 0 (cDone c) (cIter c) (cSlaves c)
                 else c)
          end
        else
          let? x := aget (cArr c) (cId c) in
          Ok (Some (Some x, Coll (cSource c) (cBuf c) (cArr c) (S (cId c)) (cDone c) (cIter c) (cSlaves c)))
    end.
  (** The master's own items, AtomCollector.cpp:123-135, GroupCollector.tpp:134-155: the next one to be returned, if any, and the items after it. *)
  Fixpoint next_own (l : list A) : option (A * list A) :=
    match l with [] => None | x :: l' => if keep x then Some (x, l') else next_own l' end.
  (** nextPtr, AtomCollector.cpp:110-199, GroupCollector.tpp:114-205. *)
  Definition nextPtr (fuel : nat) (c : coll) : outcome (option (option A * coll)) :=
    if decide (cSource c = 0) then
      match (if cDone c then None else next_own (cIter c)) with
      | Some (x, l) => Ok (Some (Some x, Coll 0 (cBuf c) (cArr c) (cId c) (cDone c) l (cSlaves c)))
      | None => next_loop fuel (Coll 0 [] [] 0 true [] (cSlaves c))
      end
    else next_loop fuel c.
  (** The loop of a ConfigIo on the master that calls nextPtr until it returns null, e.g. DdMdConfigIo.cpp:243-250 and 281-306; at most [n] calls. *)
  Fixpoint collect (n fuel : nat) (c : coll) : outcome (option (list A * coll)) :=
    match n with
    | 0 => Ok None
    | S n =>
        let? r := nextPtr fuel c in
        match r with
        | None => Ok None
        | Some (None, c) => Ok (Some ([], c))
        | Some (Some x, c) =>
            let? t := collect n fuel c in
            Ok (match t with None => None | Some (l, c) => Some (x :: l, c) end)
        end
    end.
End collector.
