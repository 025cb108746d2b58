(** Model of DdMd::Buffer (src/ddMd/communicate/Buffer.cpp, Buffer.h) and of the pack and unpack functions of DdMd::Atom
    (src/ddMd/chemistry/Atom.cpp), DdMd::Mask and DdMd::Group.  Memory is modelled byte by byte: a byte is an integer in
    0..255, an int and an unsigned int have 4 bytes, a double has 8 and is represented by its bit pattern.  Addresses are
    offsets from the beginning of the buffer.  That a Vector may be stored at an address which is not a multiple of 8 is
    not modelled.  Statistics and MPI errors other than a message too long for the receiver are left out. *)
From Verif Require Import Base SpeciesModel.
Local Open Scope Z_scope.

(** ** Representation of numbers in memory (little endian) *)
(** The [n] bytes of an unsigned number.  The bytes which Buffer::pack<T> stores, Buffer.h:562-572. *)
Fixpoint enc (n : nat) (z : Z) : list Z :=
  match n with O => [] | S n => z mod 256 :: enc n (z / 256) end.
(** The number represented by some bytes.  Buffer::unpack<T>, Buffer.h:577-587. *)
Fixpoint dec (l : list Z) : Z := match l with [] => 0 | b :: l => b + 256 * dec l end.
(** int: two's complement.  C++ int, stored by Buffer.h:562-572. *)
Definition enc_int (z : Z) : list Z := enc 4 (z mod 2 ^ 32).
(** C++ int, read by Buffer.h:577-587. *)
Definition dec_int (l : list Z) : Z := let u := dec l in if decide (u < 2 ^ 31) then u else u - 2 ^ 32.
(** A Vector is an array of three doubles (util/space/Vector.h, documented). *)
Definition enc_vec (v : Z * Z * Z) : list Z := enc 8 v.1.1 ++ enc 8 v.1.2 ++ enc 8 v.2.
(** Reading of a Vector, Buffer.h:577-587. *)
Definition dec_vec (l : list Z) : Z * Z * Z := (dec (take 8 l), dec (take 8 (drop 8 l)), dec (take 8 (drop 16 l))).
(** An AtomContext has three ints (AtomContext.h:21-53). *)
Definition enc_ctx (c : Z * Z * Z) : list Z := enc_int c.1.1 ++ enc_int c.1.2 ++ enc_int c.2.
(** Reading of an AtomContext (AtomContext.h:21-53). *)
Definition dec_ctx (l : list Z) : Z * Z * Z := (dec_int (take 4 l), dec_int (take 4 (drop 4 l)), dec_int (take 4 (drop 8 l))).

(** ** Buffer *)
(** Buffer.h:493-550.  [sPtr] and [sBlk] are sendPtr_ and sendBlockBegin_ ([None] for the null pointer), [rPtr] is
    recvPtr_, [rEnd] recvBlockEnd_; the ends of both buffers are [bCap] = bufferCapacity_. *)
Record buffer := BF {
  bCap : nat; bData : Z; bAtomCap : Z; bGhostCap : Z;
  sMem : list Z; sPtr : option nat; sBlk : option nat; sSize : Z; sType : Z;
  rMem : list Z; rPtr : nat; rEnd : Z; rSize : Z; rType : Z }.
(** Assignment to the members of the sending side.  Buffer.h:505, 514, 526, 532. *)
Definition bf_send (b : buffer) mem ptr blk size ty : buffer :=
  BF (bCap b) (bData b) (bAtomCap b) (bGhostCap b) mem ptr blk size ty (rMem b) (rPtr b) (rEnd b) (rSize b) (rType b).
(** Assignment to the members of the receiving side.  Buffer.h:511, 517, 529, 535. *)
Definition bf_recv (b : buffer) mem ptr end_ size ty : buffer :=
  BF (bCap b) (bData b) (bAtomCap b) (bGhostCap b) (sMem b) (sPtr b) (sBlk b) (sSize b) (sType b) mem ptr end_ size ty.

(** Atom::packedAtomSize, Atom.cpp:147-159, with Mask::Capacity = 4 (Mask.h:41); [h] is Atom::hasAtomContext_. *)
Definition atom_size (h : bool) : Z := 2 * 4 + 2 * 24 + 2 * 4 + (if h then 12 else 0) + 4 + 4 * 4.
(** Atom::packedGhostSize, Atom.cpp:202-212. *)
Definition ghost_size (h : bool) : Z := 2 * 4 + 24 + 4 + (if h then 12 else 0).
(** Group<N>::packedSize, Group.h:440-442. *)
Definition group_size (N : nat) : Z := (2 + Z.of_nat N) * 4 + 4.

(** int arithmetic: an overflow is undefined.  Buffer.cpp, products of counts and sizes. *)
Definition int_ok (z : Z) : outcome Z := if decide (- 2 ^ 31 <= z < 2 ^ 31) then Ok z else UB.

(** allocate(int, int), Buffer.cpp:61-79, and allocate(), 169-207, on a Buffer made by the constructor, 22-43, where
    bufferCapacity_ is -1.  [m1] and [m2] give the contents of the memory that is allocated. *)
Definition bf_allocate (h : bool) (atomCap ghostCap : Z) (m1 m2 : nat -> Z) : outcome buffer :=
  let? _ := check (bool_decide (0 <= atomCap)) in
  let? _ := check (bool_decide (0 <= ghostCap)) in
  let? _ := check (bool_decide (0 < atomCap)) in
  let? _ := check (bool_decide (0 < ghostCap)) in
  let? ad := int_ok (atomCap * atom_size h) in
  let? gd := int_ok (ghostCap * ghost_size h) in
  let (d, caps) := if decide (gd < ad) then (ad, (atomCap, ad / ghost_size h)) else (gd, (gd / atom_size h, ghostCap)) in
  let? cap := int_ok (-1 + (d + 4 * 4)) in
  let n := Z.to_nat cap in
  Ok (BF n d caps.1 caps.2 (map m1 (seq 0 n)) None None 0 0 (map m2 (seq 0 n)) 0 0 0 0).

(** clearSendBuffer, Buffer.cpp:212-218. *)
Definition bf_clear (b : buffer) : buffer := bf_send b (sMem b) (Some 0%nat) None 0 0.

(** Store the bytes [bs] at offset [p].  Buffer.h:562-572. *)
Definition write (mem : list Z) (p : nat) (bs : list Z) : list Z := take p mem ++ bs ++ drop (p + length bs) mem.

(** beginSendBlock, Buffer.cpp:223-242.  The space for the four ints is not checked. *)
Definition bf_begin (b : buffer) (ty : Z) : outcome buffer :=
  let? _ := check (bool_decide (sSize b = 0)) in
  match sPtr b with
  | None => UB
  | Some p => Ok (bf_send b (sMem b) (Some (p + 16)%nat) (Some p) 0 ty)
  end.
(** pack, Buffer.h:562-572; [bs] are the bytes of the value. *)
Definition bf_pack (b : buffer) (bs : list Z) : outcome buffer :=
  match sPtr b with
  | None => UB
  | Some p => if decide (bCap b < p + length bs)%nat then Throw
              else Ok (bf_send b (write (sMem b) p bs) (Some (p + length bs)%nat) (sBlk b) (sSize b) (sType b))
  end.
(** incrementSendSize, Buffer.h:604-605. *)
Definition bf_incr (b : buffer) : buffer := bf_send b (sMem b) (sPtr b) (sBlk b) (sSize b + 1) (sType b).
(** endSendBlock, Buffer.cpp:247-266.  A header outside the buffer is an overrun. *)
Definition bf_end (b : buffer) (complete : bool) : outcome buffer :=
  match sPtr b, sBlk b with
  | Some p, Some q =>
      if decide (length (sMem b) < q + 16)%nat then UB else
      let head := enc_int (sSize b) ++ enc_int (Z.of_nat p - Z.of_nat q) ++ enc_int (sType b) ++ enc_int (if complete then 1 else 0) in
      Ok (bf_send b (write (sMem b) q head) (Some p) None 0 0)
  | _, _ => UB
  end.

(** beginRecvBlock, Buffer.cpp:271-296.  The header is read without a check. *)
Definition bf_beginRecv (b : buffer) : outcome (buffer * bool) :=
  let? _ := check (bool_decide (rSize b = 0)) in
  if decide (length (rMem b) < rPtr b + 16)%nat then UB else
  let at_ k := dec_int (take 4 (drop (rPtr b + 4 * k) (rMem b))) in
  Ok (bf_recv b (rMem b) (rPtr b + 16)%nat (Z.of_nat (rPtr b) + at_ 1%nat) (at_ 0%nat) (at_ 2%nat),
      negb (bool_decide (at_ 3%nat = 0))).
(** unpack, Buffer.h:577-587, of a value of [n] bytes. *)
Definition bf_unpack (b : buffer) (n : nat) : outcome (buffer * list Z) :=
  if decide (bCap b < rPtr b + n)%nat then Throw
  else Ok (bf_recv b (rMem b) (rPtr b + n)%nat (rEnd b) (rSize b) (rType b), take n (drop (rPtr b) (rMem b))).
(** decrementRecvSize, Buffer.h:610-611. *)
Definition bf_decr (b : buffer) : buffer := bf_recv b (rMem b) (rPtr b) (rEnd b) (rSize b - 1) (rType b).
(** endRecvBlock, Buffer.cpp:301-313. *)
Definition bf_endRecv (b : buffer) : outcome buffer :=
  let? _ := check (bool_decide (rSize b = 0)) in
  let? _ := check (bool_decide (Z.of_nat (rPtr b) = rEnd b)) in
  Ok (bf_recv b (rMem b) (rPtr b) 0 0 0).
(** send and recv, Buffer.cpp:365-412, or the two halves of sendRecv, 319-360, and bcast, 417-442: the bytes before
    sendPtr_ of [s] arrive at the beginning of the receive buffer of [r]; MPI reports an error (an exception) if they do
    not fit. *)
Definition bf_transfer (s r : buffer) : outcome buffer :=
  match sPtr s with
  | None => UB
  | Some p =>
      if decide (length (sMem s) < p)%nat then UB
      else if decide (bCap r < p)%nat then Throw
      else Ok (bf_recv r (take p (sMem s) ++ drop p (rMem r)) 0 (rEnd r) (rSize r) (rType r))
  end.

(** ** Mask *)
(** isMasked, Mask.h:94-100, and append, Mask.cpp:42-52, with the capacity of Mask.h:41. *)
Definition mask_append (m : list Z) (id : Z) : outcome (list Z) :=
  let? _ := check (negb (bool_decide (4 <= length m)%nat)) in
  let? _ := check (negb (bool_decide (id ∈ m))) in
  Ok (m ++ [id]).

(** ** Atom *)
(** The members of an atom, some of them kept by AtomArray (Atom.h:370-395, AtomArray.h): id, typeId, position, velocity,
    flags of the plan, groups, context, mask, force. *)
Record datom := DA { aId : Z; aType : Z; aPos : Z * Z * Z; aVel : Z * Z * Z; aFlags : Z; aGroups : Z;
                     aCtx : Z * Z * Z; aMask : list Z; aForce : Z * Z * Z }.

(** packAtom, Atom.cpp:86-108: the values in the order in which they are packed. *)
Definition atom_words (h : bool) (a : datom) : list (list Z) :=
  [enc_int (aId a); enc_int (aType a); enc_vec (aPos a); enc_vec (aVel a); enc 4 (aFlags a); enc 4 (aGroups a)] ++
  (if h then [enc_ctx (aCtx a)] else []) ++
  [enc_int (Z.of_nat (length (aMask a)))] ++ map enc_int (aMask a).
(** packGhost, Atom.cpp:166-178. *)
Definition ghost_words (h : bool) (a : datom) : list (list Z) :=
  [enc_int (aId a); enc_int (aType a); enc_vec (aPos a); enc 4 (aFlags a)] ++ (if h then [enc_ctx (aCtx a)] else []).
(** packUpdate, Atom.cpp:219-223. *)
Definition update_words (a : datom) : list (list Z) := [enc_vec (aPos a)].
(** packForce, Atom.cpp:239-243. *)
Definition force_words (a : datom) : list (list Z) := [enc_vec (aForce a)].
(** One of these functions: pack each value, then incrementSendSize.  Atom.cpp:88-256, src/ddMd/chemistry/Group.h:447-456. *)
Definition pack_item (b : buffer) (words : list (list Z)) : outcome buffer :=
  let? b := foldM bf_pack b words in Ok (bf_incr b).

(** Reading of one value of each type.  Buffer.h:577-587. *)
Definition un_int (b : buffer) : outcome (buffer * Z) := let? (b, l) := bf_unpack b 4 in Ok (b, dec_int l).
(** Buffer.h:577-587. *)
Definition un_uint (b : buffer) : outcome (buffer * Z) := let? (b, l) := bf_unpack b 4 in Ok (b, dec l).
(** Buffer.h:577-587. *)
Definition un_vec (b : buffer) : outcome (buffer * (Z * Z * Z)) := let? (b, l) := bf_unpack b 24 in Ok (b, dec_vec l).
(** Buffer.h:577-587. *)
Definition un_ctx (b : buffer) : outcome (buffer * (Z * Z * Z)) := let? (b, l) := bf_unpack b 12 in Ok (b, dec_ctx l).
(** The loop over the mask, Atom.cpp:137-140. *)
Fixpoint un_mask (n : nat) (b : buffer) (m : list Z) : outcome (buffer * list Z) :=
  match n with
  | O => Ok (b, m)
  | S n => let? (b, i) := un_int b in let? m := mask_append m i in un_mask n b m
  end.

(** unpackAtom, Atom.cpp:113-144, into the atom [a]. *)
Definition unpack_atom (h : bool) (b : buffer) (a : datom) : outcome (buffer * datom) :=
  let? (b, id) := un_int b in
  let? (b, ty) := un_int b in
  let? (b, pos) := un_vec b in
  let? (b, vel) := un_vec b in
  let? (b, flags) := un_uint b in
  let? (b, groups) := un_uint b in
  let? (b, ctx) := (if h then un_ctx b else Ok (b, aCtx a)) in
  let? (b, size) := un_int b in
  let? (b, mask) := un_mask (Z.to_nat size) b [] in
  Ok (bf_decr b, DA id ty pos vel flags groups ctx mask (aForce a)).
(** unpackGhost, Atom.cpp:183-197. *)
Definition unpack_ghost (h : bool) (b : buffer) (a : datom) : outcome (buffer * datom) :=
  let? (b, id) := un_int b in
  let? (b, ty) := un_int b in
  let? (b, pos) := un_vec b in
  let? (b, flags) := un_uint b in
  let? (b, ctx) := (if h then un_ctx b else Ok (b, aCtx a)) in
  Ok (bf_decr b, DA id ty pos (aVel a) flags (aGroups a) ctx (aMask a) (aForce a)).
(** unpackUpdate, Atom.cpp:228-232. *)
Definition unpack_update (b : buffer) (a : datom) : outcome (buffer * datom) :=
  let? (b, pos) := un_vec b in
  Ok (bf_decr b, DA (aId a) (aType a) pos (aVel a) (aFlags a) (aGroups a) (aCtx a) (aMask a) (aForce a)).
(** unpackForce, Atom.cpp:248-254; [fadd] is the addition of doubles. *)
Definition unpack_force (fadd : Z -> Z -> Z) (b : buffer) (a : datom) : outcome (buffer * datom) :=
  let? (b, f) := un_vec b in
  let g := aForce a in
  Ok (bf_decr b, DA (aId a) (aType a) (aPos a) (aVel a) (aFlags a) (aGroups a) (aCtx a) (aMask a)
                    (fadd g.1.1 f.1.1, fadd g.1.2 f.1.2, fadd g.2 f.2)).

(** ** Group *)
(** Group.h:169-185; a pointer is a location or null. *)
Record dgroup := DG { gId : Z; gType : Z; gAtoms : list Z; gPtrs : list (option nat); gNPtr : Z; gFlags : Z }.
(** Group<N>::pack, Group.h:447-457. *)
Definition group_words (g : dgroup) : list (list Z) :=
  [enc_int (gId g); enc_int (gType g)] ++ map enc_int (gAtoms g) ++ [enc 4 (gFlags g)].
(** The loop over the atoms in unpack, Group.h:470-474, with setAtomId, 289-291, and clearAtomPtr, 310-316. *)
Fixpoint un_ids (js : list nat) (b : buffer) (g : dgroup) : outcome (buffer * dgroup) :=
  match js with
  | [] => Ok (b, g)
  | j :: js =>
      let? (b, i) := un_int b in
      let? ids := aset (gAtoms g) j i in
      let? p := aget (gPtrs g) j in
      let? (ptrs, n) := match p with
                        | Some _ => let? ptrs := aset (gPtrs g) j None in Ok (ptrs, gNPtr g - 1)
                        | None => Ok (gPtrs g, gNPtr g)
                        end in
      un_ids js b (DG (gId g) (gType g) ids ptrs n (gFlags g))
  end.
(** Group<N>::unpack, Group.h:462-479. *)
Definition unpack_group (N : nat) (b : buffer) (g : dgroup) : outcome (buffer * dgroup) :=
  let? (b, id) := un_int b in
  let? (b, ty) := un_int b in
  let? (b, g) := un_ids (seq 0 N) b (DG id ty (gAtoms g) (gPtrs g) (gNPtr g) (gFlags g)) in
  let? (b, flags) := un_uint b in
  Ok (bf_decr b, DG (gId g) (gType g) (gAtoms g) (gPtrs g) (gNPtr g) flags).

(** ** Whole messages *)
(** A block, as made by beginSendBlock, one pack function for each item, endSendBlock.  The use described in Buffer.h:84-122. *)
Record block := BK { kType : Z; kComplete : bool; kItems : list (list (list Z)) }.
(** Buffer.h:86-106. *)
Definition send_block (b : buffer) (k : block) : outcome buffer :=
  let? b := bf_begin b (kType k) in
  let? b := foldM pack_item b (kItems k) in
  bf_end b (kComplete k).
(** clearSendBuffer and some blocks.  Buffer.h:86-106. *)
Definition send_message (b : buffer) (ks : list block) : outcome buffer := foldM send_block (bf_clear b) ks.

(** The loop of a receiver over the items of a block: each is unpacked into the next of the objects [ts].  Buffer.h:126-148. *)
Fixpoint recv_items {T} (unpack : buffer -> T -> outcome (buffer * T)) (b : buffer) (ts : list T) : outcome (buffer * list T) :=
  match ts with
  | [] => Ok (b, [])
  | t :: ts => let? (b, t) := unpack b t in let? (b, ts) := recv_items unpack b ts in Ok (b, t :: ts)
  end.
(** beginRecvBlock, the loop, endRecvBlock.  Buffer.h:126-148. *)
Definition recv_block {T} (unpack : buffer -> T -> outcome (buffer * T)) (b : buffer) (ts : list T) : outcome (buffer * (bool * list T)) :=
  let? (b, complete) := bf_beginRecv b in
  let? (b, ts) := recv_items unpack b ts in
  let? b := bf_endRecv b in
  Ok (b, (complete, ts)).
(** The kinds of blocks, Buffer::BlockDataType, Buffer.h:225-226. *)
Inductive content :=
| CAtoms (l : list datom) | CGhosts (l : list datom) | CUpdates (l : list datom) | CForces (l : list datom)
| CGroups (N : nat) (l : list dgroup).
(** The code of the type of a block and its items, as in Exchanger.cpp:378, 678, 841, 915 and GroupStorage.tpp:651. *)
Definition block_of (h : bool) (c : content) (complete : bool) : block :=
  match c with
  | CAtoms l => BK 1 complete (map (atom_words h) l)
  | CGhosts l => BK 2 complete (map (ghost_words h) l)
  | CUpdates l => BK 3 complete (map update_words l)
  | CForces l => BK 4 complete (map force_words l)
  | CGroups N l => BK (Z.of_nat N + 3) complete (map group_words l)
  end.
(** Receive one block into the objects [t].  Buffer.h:126-148. *)
Definition recv_content (h : bool) (fadd : Z -> Z -> Z) (b : buffer) (t : content) : outcome (buffer * (bool * content)) :=
  match t with
  | CAtoms l => let? (b, (f, l)) := recv_block (unpack_atom h) b l in Ok (b, (f, CAtoms l))
  | CGhosts l => let? (b, (f, l)) := recv_block (unpack_ghost h) b l in Ok (b, (f, CGhosts l))
  | CUpdates l => let? (b, (f, l)) := recv_block unpack_update b l in Ok (b, (f, CUpdates l))
  | CForces l => let? (b, (f, l)) := recv_block (unpack_force fadd) b l in Ok (b, (f, CForces l))
  | CGroups N l => let? (b, (f, l)) := recv_block (unpack_group N) b l in Ok (b, (f, CGroups N l))
  end.
(** The blocks of a message in turn.  Buffer.h:126-148. *)
Fixpoint recv_message (h : bool) (fadd : Z -> Z -> Z) (b : buffer) (ts : list content) : outcome (buffer * list (bool * content)) :=
  match ts with
  | [] => Ok (b, [])
  | t :: ts => let? (b, x) := recv_content h fadd b t in let? (b, xs) := recv_message h fadd b ts in Ok (b, x :: xs)
  end.
