(** Model of DdMd::AtomDistributor (src/ddMd/communicate/AtomDistributor.cpp).  Communication goes one way only, from the master to the
    other processors, so that the master is run to the end, with the list of the messages it sends, and then every other
    processor on the messages sent to it, in the order in which they were sent (MPI does not let messages between two processors overtake each
    other).  A message is one block of atoms and its flag isComplete; that unpacking a block gives what was packed is the
    subject of BufferModel (C21).  An AtomStorage is modelled by the list of its local atoms, see AtomStorageModel (C19).  Counters are
    natural numbers. *)
From Verif Require Import Base Containers Vec3 OrthoModel DomainModel SpeciesModel BufferModel.
From Coq Require Import Reals.
Local Open Scope nat_scope.

(** An atom: its id, its position in generalized coordinates, the size of its mask, and all other members that are sent
    (Atom.cpp:86-109). *)
Record patom := PA { tId : Z; tPos : vec3 R; tMask : nat; tRest : list Z }.
(** Atom::clear, Atom.cpp:69-80, leaves the position and the velocity alone. *)
Definition pa_clear (a : patom) : patom := PA (-1) (tPos a) 0 (tRest a).
(** Bytes packed by Atom::packAtom, Atom.cpp:86-109; [h] is Atom::hasAtomContext_. *)
Definition patom_bytes (h : bool) (a : patom) : nat := (if h then 80 else 68) + 4 * tMask a.

(** The local atoms of an AtomStorage, its capacity for local atoms and the total number of ids (AtomStorage.h). *)
Record pstore := PS { psCap : nat; psTotal : nat; psAtoms : list patom }.
(** newAtomPtr, assignment or unpackAtom, addNewAtom: AtomStorage.cpp:187-227, AtomMap.cpp:57-78. *)
Definition ps_add (s : pstore) (a : patom) : outcome pstore :=
  let? _ := check (bool_decide (length (psAtoms s) < psCap s)) in
  let? _ := check (bool_decide (0 <= tId a < Z.of_nat (psTotal s))%Z) in
  let? _ := check (negb (bool_decide (tId a ∈ map tId (psAtoms s)))) in
  Ok (PS (psCap s) (psTotal s) (psAtoms s ++ [a])).

(** A message: a block of items and isComplete. *)
Notation packet A := (list A * bool)%type.

(** Members of AtomDistributor, AtomDistributor.h:218-310: cacheCapacity_, sendCapacity_, the size of the grid, cache_, reservoir_ (top
    first), sendArrays_, sendSizes_, rankMaxSendSize_, nCachedTotal_, nSentTotal_, newPtr_ (an index into cache_); the block being packed, the messages
    sent so far with their destinations, and the master's own storage. *)
Record distr := Dist {
  qCap : nat; qSend : nat; qGrid : nat; qCache : list patom; qRes : list nat; qArr : list (list (option nat)); qSizes : list nat;
  qMax : nat; qCached : nat; qSent : nat; qNew : option nat; qBlk : list patom; qOut : list (nat * packet patom); qStore : pstore }.
(** Assignment to cache_, reservoir_, sendArrays_, and the block.  AtomDistributor.h, members. *)
Definition q_flush (d : distr) cache res arr blk : distr :=
  Dist (qCap d) (qSend d) (qGrid d) cache res arr (qSizes d) (qMax d) (qCached d) (qSent d) (qNew d) blk (qOut d) (qStore d).
(** Assignment to sendSizes_, rankMaxSendSize_, nCachedTotal_, nSentTotal_.  AtomDistributor.h, members. *)
Definition q_count (d : distr) sizes mx cached sent : distr :=
  Dist (qCap d) (qSend d) (qGrid d) (qCache d) (qRes d) (qArr d) sizes mx cached sent (qNew d) (qBlk d) (qOut d) (qStore d).
(** Assignment to newPtr_ and the storage.  AtomDistributor.h, member newPtr_; AtomStorage. *)
Definition q_new (d : distr) new store : distr :=
  Dist (qCap d) (qSend d) (qGrid d) (qCache d) (qRes d) (qArr d) (qSizes d) (qMax d) (qCached d) (qSent d) new (qBlk d) (qOut d) store.

(** The constructor, AtomDistributor.cpp:26-44, setCapacity or readParameters, 69-84, and allocate, 89-140, for a cache capacity
    [c] (a capacity that is not positive gives the default), a buffer [b], a grid of [n] processors; [m] gives the contents of the memory that
    is allocated. *)
Definition dist_new (b : buffer) (n : nat) (c : Z) (m : nat -> patom) (s : pstore) : distr :=
  let send := Z.to_nat (bAtomCap b) in
  let cap := if decide (c <= 0)%Z then n * send else Z.to_nat c in
  Dist cap send n (map m (seq 0 cap)) (seq 0 cap) (replicate n (replicate send None)) (replicate n 0) 0 0 0 None [] [] s.
(** setup, AtomDistributor.cpp:146-186, after the allocation; [s] is the master's storage, which other code may have changed since the last
    distribution. *)
Definition dist_setup (d : distr) (s : pstore) : outcome distr :=
  let? _ := check (bool_decide (length (qRes d) = qCap d)) in
  let? _ := check (forallb (fun k => bool_decide (k = 0)) (qSizes d)) in
  Ok (Dist (qCap d) (qSend d) (qGrid d) (qCache d) (qRes d) (qArr d) (qSizes d) (qMax d) 0 0 (qNew d) [] [] s).

(** packAtom into the block being packed, Buffer.h:562-572: the header of 16 bytes and the atoms must fit. *)
Definition pack_atom (h : bool) (b : buffer) (blk : list patom) (a : patom) : outcome (list patom) :=
  if decide (bCap b < 16 + sum_list (map (patom_bytes h) blk) + patom_bytes h a) then Throw else Ok (blk ++ [a]).
(** Bodies of the loops 227-234 and 330-337, and with [clear] off 406-412: pack atom [i] of the array of [rank], give its place back.  AtomDistributor.cpp:227-234, 330-337, 406-412. *)
Definition flush_one (h : bool) (b : buffer) (clear : bool) (rank : nat) (d : distr) (i : nat) : outcome distr :=
  let? row := aget (qArr d) rank in
  let? o := aget row i in
  match o with
  | None => UB
  | Some p =>
      let? a := aget (qCache d) p in
      let? blk := pack_atom h b (qBlk d) a in
      let? res := stack_push (qCap d) (qRes d) p in
      let? row := aset row i (if clear then None else Some p) in
      let? arr := aset (qArr d) rank row in
      Ok (q_flush d (qCache d) res arr blk)
  end.
(** endSendBlock, Buffer::send, clearSendBuffer, beginSendBlock, e.g. 235-245; Buffer::send, Buffer.cpp:365-388, refuses to send to the
    processor itself (the master has rank 0) and to ranks outside of the grid. *)
Definition send_block_to (rank : nat) (complete : bool) (d : distr) : outcome distr :=
  let? _ := check (bool_decide (rank < qGrid d)) in
  let? _ := check (negb (bool_decide (rank = 0))) in
  Ok (Dist (qCap d) (qSend d) (qGrid d) (qCache d) (qRes d) (qArr d) (qSizes d) (qMax d) (qCached d) (qSent d) (qNew d)
           [] (qOut d ++ [(rank, (qBlk d, complete))]) (qStore d)).

(** newAtomPtr, AtomDistributor.cpp:192-257. *)
Definition dist_newAtomPtr (h : bool) (b : buffer) (d : distr) : outcome distr :=
  let? _ := check (bool_decide (0 < qCap d)) in
  let? _ := check (bool_decide (qNew d = None)) in
  let? d :=
    if decide (length (qRes d) = 0) then
      let rank := qMax d in
      let? size := aget (qSizes d) rank in
      let nSend := Nat.min size (qSend d) in
      let begin := size - nSend in
      let? d := foldM (flush_one h b true rank) d (seq begin (size - begin)) in
      let? k := aget (qSizes d) rank in
      let? sizes := aset (qSizes d) rank begin in
      send_block_to rank false (q_count d sizes (qMax d) (qCached d) (qSent d + k))
    else Ok d in
  let? (p, res) := stack_pop (qRes d) in
  let? a := aget (qCache d) p in
  let? cache := aset (qCache d) p (pa_clear a) in
  Ok (q_new (q_flush d cache res (qArr d) (qBlk d)) (Some p) (qStore d)).
(** The client sets the members of the new atom.  The client, e.g. src/ddMd/configIos/DdMdConfigIo.cpp, between newAtomPtr and addAtom. *)
Definition dist_write (d : distr) (a : patom) : outcome distr :=
  match qNew d with
  | None => UB
  | Some p => let? cache := aset (qCache d) p a in Ok (q_flush d cache (qRes d) (qArr d) (qBlk d))
  end.
(** addAtom, AtomDistributor.cpp:262-371, on the master, whose domain is [D]; shiftGen of the boundary. *)
Definition dist_addAtom (h : bool) (b : buffer) (D : domain) (d : distr) : outcome distr :=
  match qNew d with
  | None => Throw
  | Some p =>
      let? a := aget (qCache d) p in
      let a := PA (tId a) (shiftGen1 (tPos a)) (tMask a) (tRest a) in
      let? cache := aset (qCache d) p a in
      let d := q_flush d cache (qRes d) (qArr d) (qBlk d) in
      let? r := ownerRank D (tPos a) in
      let? d :=
        if decide (r = 0)%Z then
          let? s := ps_add (qStore d) a in
          let? res := stack_push (qCap d) (qRes d) p in
          Ok (q_new (q_flush d (qCache d) res (qArr d) (qBlk d)) (qNew d) s)
        else
          let rank := Z.to_nat r in
          let? size := aget (qSizes d) rank in
          let? row := aget (qArr d) rank in
          let? row := aset row size (Some p) in
          let? arr := aset (qArr d) rank row in
          let? sizes := aset (qSizes d) rank (S size) in
          let? smax := aget sizes (qMax d) in
          let mx := if decide (rank <> qMax d) then (if decide (smax < S size) then rank else qMax d) else qMax d in
          let d := q_count (q_flush d (qCache d) (qRes d) arr (qBlk d)) sizes mx (S (qCached d)) (qSent d) in
          if decide (S size = qSend d) then
            let? d := foldM (flush_one h b true rank) d (seq 0 (qSend d)) in
            let? sizes := aset (qSizes d) rank 0 in
            send_block_to rank false (q_count d sizes (qMax d) (qCached d) (qSent d + qSend d))
          else Ok d in
      Ok (q_new d None (qStore d))
  end.
(** Body of the loop 402-430 of send.  AtomDistributor.cpp:402-430. *)
Definition send_rest (h : bool) (b : buffer) (d : distr) (i : nat) : outcome distr :=
  let? size := aget (qSizes d) i in
  let? d := foldM (flush_one h b false i) d (seq 0 size) in
  let? d := send_block_to i true (q_count d (qSizes d) (qMax d) (qCached d) (qSent d + size)) in
  let? arr := aset (qArr d) i (replicate (qSend d) None) in
  let? sizes := aset (qSizes d) i 0 in
  Ok (q_count (q_flush d (qCache d) (qRes d) arr (qBlk d)) sizes (qMax d) (qCached d) (qSent d)).
(** send, AtomDistributor.cpp:379-430, up to the point where all processors add up their numbers of atoms. *)
Definition dist_send (h : bool) (b : buffer) (d : distr) : outcome distr :=
  let? _ := check (bool_decide (qNew d = None)) in
  foldM (send_rest h b) d (seq 1 (qGrid d - 1)).
(** The rest of send, 432-446; [total] is the sum over all processors.  AtomDistributor.cpp:432-446. *)
Definition dist_post (d : distr) (total : nat) : outcome () :=
  let? _ := check (bool_decide (length (qRes d) = qCap d)) in
  let? _ := check (bool_decide (qCached d = qSent d)) in
  check (bool_decide (total = qSent d + length (psAtoms (qStore d)))).
(** The loop over atoms of a ConfigIo on the master, e.g. DdMdConfigIo.cpp:130-179. *)
Definition dist_master (h : bool) (b : buffer) (D : domain) (d : distr) (s : pstore) (atoms : list patom) : outcome distr :=
  let? d := dist_setup d s in
  let? d := foldM (fun d a => let? d := dist_newAtomPtr h b d in let? d := dist_write d a in dist_addAtom h b D d) d atoms in
  dist_send h b d.

(** receive, AtomDistributor.cpp:457-499, on the processor of rank [rank] with domain [D], for the messages sent to it in order; the messages
    left over are returned as well.  [None]: the processor waits for a message that is never sent. *)
Fixpoint dist_receive (D : domain) (rank : Z) (s : pstore) (ms : list (packet patom)) : outcome (option (pstore * list (packet patom))) :=
  match ms with
  | [] => Ok None
  | (l, complete) :: ms =>
      let? s := foldM (fun s a => let? s := ps_add s a in let? r := ownerRank D (tPos a) in let? _ := check (bool_decide (r = rank)) in Ok s) s l in
      if (complete : bool) then Ok (Some (s, ms)) else dist_receive D rank s ms
  end.
(** Messages sent to one processor.  Buffer::send in AtomDistributor.cpp:241, 344, 417. *)
Definition sent_to {A} (rank : nat) (out : list (nat * packet A)) : list (packet A) :=
  map snd (List.filter (fun x => bool_decide (x.1 = rank)) out).

(** The loop over coordinates of validate, 526-536, for one atom; domainBound of Domain.cpp:190-205. *)
Definition in_bounds (D : domain) (a : patom) : bool :=
  forallb (fun i => if Rlt_dec (vget (tPos a) i) (domainBound D i 0) then false else if Rge_dec (vget (tPos a) i) (domainBound D i 1) then false else true) [0; 1; 2].
(** validate, AtomDistributor.cpp:506-539, on the master: [total] is the sum of the numbers of atoms; the storage checks itself as
    well (C19). *)
Definition dist_validate_master (D : domain) (d : distr) (total : nat) : outcome nat :=
  let? _ := check (bool_decide (total = qSent d + length (psAtoms (qStore d)))) in
  let? _ := check (forallb (in_bounds D) (psAtoms (qStore d))) in
  Ok total.
(** validate on another processor.  AtomDistributor.cpp:506-538. *)
Definition dist_validate (D : domain) (s : pstore) : outcome nat :=
  let? _ := check (forallb (in_bounds D) (psAtoms s)) in Ok 0.

(** The whole distribution: all processors of a grid, whose domains are [Ds] and whose storages are [ss] (the first ones are the
    master's).  Result: the distributor, the storages and what validate returns on the master; [None] if a processor waits forever or
    a message is not received.  AtomDistributor.cpp:146-538 on all processors. *)
Definition distribute (h : bool) (b : buffer) (Ds : list domain) (d : distr) (ss : list pstore) (atoms : list patom) : outcome (option (distr * list pstore * nat)) :=
  match Ds, ss with
  | D :: Ds, s :: ss =>
      let? d := dist_master h b D d s atoms in
      let? rs := foldM (fun acc x =>
        let? r := dist_receive x.2.1 (Z.of_nat x.1) x.2.2 (sent_to x.1 (qOut d)) in
        Ok (acc ++ [r])) [] (zip (seq 1 (qGrid d - 1)) (zip Ds ss)) in
      if forallb (fun r => match r with Some (_, []) => true | _ => false end) rs then
        let ss := omap (fun r => fst <$> r) rs in
        let total := sum_list (map (fun s => length (psAtoms s)) (qStore d :: ss)) in
        let? _ := dist_post d total in
        let? n := dist_validate_master D d total in
        let? _ := foldM (fun _ x => let? _ := dist_validate x.1 x.2 in Ok ()) () (zip Ds ss) in
        Ok (Some (d, qStore d :: ss, n))
      else Ok None
  | _, _ => UB
  end.
