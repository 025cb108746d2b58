(** Model of DdMd::Exchanger (src/ddMd/communicate/Exchanger.cpp): exchange of atoms and ghosts between the processors of a grid, updates of the
    positions of ghosts and of the forces on their owners.  All processors run the same program; every transfer is a blocking exchange with the
    two neighbours along one axis (Buffer::sendRecv), so that a run is a sequence of rounds in which all processors pack, all messages are
    delivered, and all processors unpack.  That unpacking gives what was packed is C21; the capacity of the buffer is not modelled here (see C22).  Groups are
    not modelled here: [groupExchangers_] is empty.  Generalized coordinates are real numbers.

    An atom is addressed by a number (a pointer); memory of removed atoms is not used again by the model, and the order of the atoms that remain
    in an AtomStorage when others are removed is kept (see AtomStorageModel for both). *)
From Verif Require Import Base Containers Vec3 PlanModel DomainModel SpeciesModel.
From Coq Require Import Reals.
Local Open Scope nat_scope.

(** Members of DdMd::Atom, Atom.h:366-405: id and typeId, position, plan, force; [xRest] stands for velocity, groups, mask. *)
Record xatom := XA { xId : Z; xType : Z; xPos : vec3 R; xPlan : plan; xForce : vec3 R; xRest : Z }.
(** A processor: domain, capacities of the AtomStorage (AtomStorage.h:562-565), its memory and the first unused pointer, local atoms, ghosts, and the
    arrays sendArray_ and recvArray_ of the Exchanger (Exchanger.h:149-161). *)
Record xproc := XP {
  xpDom : domain;  xpCap : nat;  xpGCap : nat;  xpMem : nat -> xatom;  xpNext : nat;  xpLocals : list nat;  xpGhosts : list nat;
  xpSend : nat -> nat -> list nat;  xpRecv : nat -> nat -> list nat }.

(** gridFlags_[i], Exchanger.cpp:236-240. *)
Definition xflag (D : domain) (i : nat) : bool := bool_decide (1 < vget (dDims D) i)%Z.
(** inner_(i, j) and outer_(i, j), Exchanger.cpp:218-235, for a slab of width [s] = pairCutoff_/lengths[i]. *)
Definition xinner (D : domain) (s : R) (i j : nat) : R := match j with 0 => domainBound D i 0 + s | _ => domainBound D i 1 - s end%R.
(** Exchanger.cpp:218-235. *)
Definition xouter (D : domain) (s : R) (i j : nat) : R := match j with 0 => domainBound D i 0 - s | _ => domainBound D i 1 + s end%R.

(** The plan of an atom with coordinate [x] along axis [i], Exchanger.cpp:255-302: both directions. *)
Definition plan_axis (D : domain) (s : R) (x : R) (i : nat) (p : plan) : plan :=
  let p :=
    if Rlt_dec x (domainBound D i 0) then
      let p := setExchange p i 0 in
      if Rlt_dec (xouter D s i 0) x then setGhost p i 1 else p
    else if Rlt_dec x (xinner D s i 0) then setGhost p i 0 else p in
  if Rlt_dec (domainBound D i 1) x then
    let p := setExchange p i 1 in
    if Rlt_dec x (xouter D s i 1) then setGhost p i 0 else p
  else if Rlt_dec (xinner D s i 1) x then setGhost p i 1 else p.
(** Loop over the axes, Exchanger.cpp:246-304; [s] are the widths of the slabs. *)
Definition plan_atom (D : domain) (s : vec3 R) (x : vec3 R) : plan :=
  fold_left (fun p i => plan_axis D (vget s i) (vget x i) i p) [0; 1; 2] (clearFlags 0%N).
(** isHome: no exchange along an axis with more than one processor; Exchanger.cpp:263-265 and 283-285 for all axes, 510-520 for the axes from [from] on. *)
Definition stays (D : domain) (from : nat) (p : plan) : bool :=
  forallb (fun i => negb (xflag D i && (exchange p i 0 || exchange p i 1))) (seq from (3 - from)).
(** Append [h] to sendArray_(ip, jp) for the directions with ghost flag, from axis [from] on; Exchanger.cpp:308-316, 523-531, 715-723, 759-767. *)
Definition add_sends (s : nat -> nat -> list nat) (from : nat) (p : plan) (h : nat) : nat -> nat -> list nat :=
  fun i j => if decide (from <= i < 3 /\ j < 2) then if ghost p i j then s i j ++ [h] else s i j else s i j.
(** position()[i] += rshift, e.g. Exchanger.cpp:497-499; adding nothing if the shift is zero. *)
Definition shift_pos (x : vec3 R) (i : nat) (t : Z) : vec3 R := vset x i (vget x i + IZR t)%R.

(** First part of exchangeAtoms, Exchanger.cpp:214-337: plans of all local atoms, send arrays of those that stay, no ghosts. *)
Definition xstart (s : vec3 R) (p : xproc) : xproc :=
  let mem := fun h => let a := xpMem p h in
    if decide (h ∈ xpLocals p) then XA (xId a) (xType a) (xPos a) (plan_atom (xpDom p) s (xPos a)) (xForce a) (xRest a) else a in
  XP (xpDom p) (xpCap p) (xpGCap p) mem (xpNext p) (xpLocals p) []
     (fold_left (fun t h => if stays (xpDom p) 0 (xPlan (mem h)) then add_sends t 0 (xPlan (mem h)) h else t) (xpLocals p) (fun _ _ => []))
     (xpRecv p).
(** One direction of the main loop up to the transfer, Exchanger.cpp:375-478: the processor without the atoms that are sent, and those atoms; with one
    processor along the axis positions are shifted instead. *)
Definition xpack (i j : nat) (p : xproc) : xproc * list xatom :=
  let out := fun h => exchange (xPlan (xpMem p h)) i j in
  if xflag (xpDom p) i then
    (XP (xpDom p) (xpCap p) (xpGCap p) (xpMem p) (xpNext p) (List.filter (fun h => negb (out h)) (xpLocals p)) (xpGhosts p) (xpSend p) (xpRecv p),
     map (xpMem p) (List.filter out (xpLocals p)))
  else
    let mem := fun h => let a := xpMem p h in
      if decide (h ∈ xpLocals p /\ out h = true)
      then XA (xId a) (xType a) (shift_pos (xPos a) i (dShift (xpDom p) i j)) (xPlan a) (xForce a) (xRest a) else a in
    (XP (xpDom p) (xpCap p) (xpGCap p) mem (xpNext p) (xpLocals p) (xpGhosts p) (xpSend p) (xpRecv p), []).
(** Body of the loop over received atoms, Exchanger.cpp:486-533; packAtom and unpackAtom, Atom.cpp:88-145, send all data but the force. *)
Definition xtake (i j : nat) (p : xproc) (a : xatom) : xproc :=
  let h := xpNext p in
  let a := XA (xId a) (xType a) (shift_pos (xPos a) i (dShift (xpDom p) i j)) (xPlan a) (xForce (xpMem p h)) (xRest a) in
  XP (xpDom p) (xpCap p) (xpGCap p) (fun k => if decide (k = h) then a else xpMem p k) (S h) (xpLocals p ++ [h]) (xpGhosts p)
     (if stays (xpDom p) (S i) (xPlan a) then add_sends (xpSend p) 0 (xPlan a) h else xpSend p) (xpRecv p).
(** The loop, Exchanger.cpp:483-535.  newAtomPtr throws if there is no room (AtomStorage.cpp:187-203), addNewAtom if there is a local atom with this id already (AtomStorage.cpp:216, AtomMap.cpp:58-80; the id is in the range of the map, since all processors have maps of the same size). *)
Definition xunpack (i j : nat) (p : xproc) (msg : list xatom) : outcome xproc :=
  if decide (length (xpLocals p) + length msg <= xpCap p /\ NoDup (map (fun h => xId (xpMem p h)) (xpLocals p) ++ map xId msg))
  then Ok (fold_left (xtake i j) msg p) else Throw.

(** Apply an operation on every processor.  Every processor runs the code of Exchanger.cpp. *)
Fixpoint mapO {A B} (f : A -> outcome B) (l : list A) : outcome (list B) :=
  match l with [] => Ok [] | x :: l => let? y := f x in let? t := mapO f l in Ok (y :: t) end.
(** The message for the processor with domain [D] in direction (i, j): Buffer::sendRecv with sourceRank(i, j), Exchanger.cpp:368, 480-482; waiting for a rank that is not there is [UB]. *)
Definition from_source (D : domain) (i j : nat) (msgs : list (list xatom)) : outcome (list xatom) := aget msgs (Z.to_nat (dSource D i j)).
(** One round of the main loop on all processors, Exchanger.cpp:353-547. *)
Definition xround (i j : nat) (sys : list xproc) : outcome (list xproc) :=
  let packed := map (xpack i j) sys in
  mapO (fun p => if xflag (xpDom p) i then let? msg := from_source (xpDom p) i j (map snd packed) in xunpack i j p msg else Ok p) (map fst packed).
(** The six transfer directions in order, Exchanger.cpp:353-358. *)
Definition dirs : list (nat * nat) := [(0, 0); (0, 1); (1, 0); (1, 1); (2, 0); (2, 1)].
(** exchangeAtoms, Exchanger.cpp:201-591, on all processors. *)
Definition exchangeAtoms (s : vec3 R) (sys : list xproc) : outcome (list xproc) :=
  foldM (fun sys ij => xround ij.1 ij.2 sys) (map (xstart s) sys) dirs.

(** Atoms packed in direction (i, j), Exchanger.cpp:682-690. *)
Definition xgpack (i j : nat) (p : xproc) : list xatom := map (xpMem p) (xpSend p i j).
(** Body of the loops that make ghosts, Exchanger.cpp:692-725 (one processor along the axis; copyLocalGhost, Atom.cpp:262-271) and 743-768 (unpackGhost, Atom.cpp:184-199).  Force and the data in [xRest]
    are what was in the memory before. *)
Definition xgtake (i j : nat) (p : xproc) (a : xatom) : xproc :=
  let h := xpNext p in
  let pl := if xflag (xpDom p) i then match j with 0 => clearGhost (xPlan a) i 1 | _ => xPlan a end else xPlan a in
  let a := XA (xId a) (xType a) (shift_pos (xPos a) i (dShift (xpDom p) i j)) pl (xForce (xpMem p h)) (xRest (xpMem p h)) in
  XP (xpDom p) (xpCap p) (xpGCap p) (fun k => if decide (k = h) then a else xpMem p k) (S h) (xpLocals p) (xpGhosts p ++ [h])
     (add_sends (xpSend p) (S i) (xPlan a) h)
     (fun ip jp => if decide (ip = i /\ jp = j) then xpRecv p i j ++ [h] else xpRecv p ip jp).
(** The loops; newGhostPtr throws if there is no room (AtomStorage.cpp:278-292). *)
Definition xgunpack (i j : nat) (p : xproc) (msg : list xatom) : outcome xproc :=
  if decide (length (xpGhosts p) + length msg <= xpGCap p) then Ok (fold_left (xgtake i j) msg p) else Throw.
(** One round of exchangeGhosts on all processors, Exchanger.cpp:660-790; along an axis with one processor the atoms are copied without a message. *)
Definition xground (i j : nat) (sys : list xproc) : outcome (list xproc) :=
  mapO (fun p => let? msg := (if xflag (xpDom p) i then from_source (xpDom p) i j (map (xgpack i j) sys) else Ok (xgpack i j p)) in xgunpack i j p msg) sys.
(** exchangeGhosts, Exchanger.cpp:600-814: throws if there are ghosts, clears recvArray_, six rounds. *)
Definition exchangeGhosts (sys : list xproc) : outcome (list xproc) :=
  if forallb (fun p => bool_decide (xpGhosts p = [])) sys then
    foldM (fun sys ij => xground ij.1 ij.2 sys)
      (map (fun p => XP (xpDom p) (xpCap p) (xpGCap p) (xpMem p) (xpNext p) (xpLocals p) (xpGhosts p) (xpSend p) (fun _ _ => [])) sys) dirs
  else Throw.
(** exchange, Exchanger.cpp:106-113; coordinates are generalized. *)
Definition exchange_all (s : vec3 R) (sys : list xproc) : outcome (list xproc) :=
  let? sys := exchangeAtoms s sys in exchangeGhosts sys.

(** ** Updates *)
(** Set the memory of a processor.  Writes through Atom pointers, Exchanger.cpp. *)
Definition with_mem (p : xproc) (m : nat -> xatom) : xproc :=
  XP (xpDom p) (xpCap p) (xpGCap p) m (xpNext p) (xpLocals p) (xpGhosts p) (xpSend p) (xpRecv p).
(** unpackUpdate or copyLocalUpdate and applyShift for one ghost, Exchanger.cpp:862-868, 880-888; [sh] is Boundary::applyShift. *)
Definition set_pos (sh : vec3 R -> nat -> Z -> vec3 R) (i : nat) (t : Z) (m : nat -> xatom) (hx : nat * vec3 R) : nat -> xatom :=
  fun k => if decide (k = hx.1)
           then let a := m k in XA (xId a) (xType a) (sh hx.2 i t) (xPlan a) (xForce a) (xRest a) else m k.
(** The message of positions and a processor's round of update, Exchanger.cpp:836-890.  Reading more positions than were sent is [UB]. *)
Definition uround (sh : vec3 R -> nat -> Z -> vec3 R) (i j : nat) (sys : list xproc) : outcome (list xproc) :=
  let msgs := map (fun p => map (fun h => xPos (xpMem p h)) (xpSend p i j)) sys in
  mapO (fun p => let? msg := (if xflag (xpDom p) i then aget msgs (Z.to_nat (dSource (xpDom p) i j))
                              else Ok (map (fun h => xPos (xpMem p h)) (xpSend p i j))) in
          if decide (length msg = length (xpRecv p i j))
          then Ok (with_mem p (fold_left (set_pos sh i (dShift (xpDom p) i j)) (zip (xpRecv p i j) msg) (xpMem p))) else UB) sys.
(** update, Exchanger.cpp:821-894. *)
Definition update (sh : vec3 R -> nat -> Z -> vec3 R) (sys : list xproc) : outcome (list xproc) :=
  foldM (fun sys ij => uround sh ij.1 ij.2 sys) sys dirs.

(** operator += of Vector.  Util::Vector (util, documented). *)
Definition vplus (a b : vec3 R) : vec3 R := V3 (vx a + vx b)%R (vy a + vy b)%R (vz a + vz b)%R.
(** unpackForce, Atom.cpp:250-256, and Exchanger.cpp:948-951: add a force. *)
Definition add_force (m : nat -> xatom) (hf : nat * vec3 R) : nat -> xatom :=
  fun k => if decide (k = hf.1)
           then let a := m k in XA (xId a) (xType a) (xPos a) (xPlan a) (vplus (xForce a) hf.2) (xRest a) else m k.
(** A round of reverseUpdate, Exchanger.cpp:911-953: forces of the ghosts in recvArray_(i, j) go back to where the ghosts came from, destRank(i, j). *)
Definition rround (i j : nat) (sys : list xproc) : outcome (list xproc) :=
  let msgs := map (fun p => map (fun h => xForce (xpMem p h)) (xpRecv p i j)) sys in
  mapO (fun p => let? msg := (if xflag (xpDom p) i then aget msgs (Z.to_nat (dDest (xpDom p) i j))
                              else Ok (map (fun h => xForce (xpMem p h)) (xpRecv p i j))) in
          if decide (length msg = length (xpSend p i j))
          then Ok (with_mem p (fold_left add_force (zip (xpSend p i j) msg) (xpMem p))) else UB) sys.
(** reverseUpdate, Exchanger.cpp:902-960. *)
Definition reverseUpdate (sys : list xproc) : outcome (list xproc) :=
  foldM (fun sys ij => rround ij.1 ij.2 sys) sys (reverse dirs).
