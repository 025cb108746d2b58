(** What packing and unpacking have to do, and which values the fields can have. *)
From Verif Require Import Base SpeciesModel BufferModel.
Local Open Scope Z_scope.

(** Values of the C++ types. *)
Definition is_int (z : Z) : Prop := - 2 ^ 31 <= z < 2 ^ 31.
Definition is_uint (z : Z) : Prop := 0 <= z < 2 ^ 32.
Definition is_double (z : Z) : Prop := 0 <= z < 2 ^ 64.
Definition each (P : Z -> Prop) (v : Z * Z * Z) : Prop := P v.1.1 /\ P v.1.2 /\ P v.2.
Record atom_ok (a : datom) : Prop := {
  ao_id : is_int (aId a); ao_type : is_int (aType a); ao_pos : each is_double (aPos a); ao_vel : each is_double (aVel a);
  ao_flags : is_uint (aFlags a); ao_groups : is_uint (aGroups a); ao_ctx : each is_int (aCtx a);
  ao_mask : Forall is_int (aMask a) /\ NoDup (aMask a) /\ (length (aMask a) <= 4)%nat; ao_force : each is_double (aForce a) }.
Record group_ok (N : nat) (g : dgroup) : Prop := {
  go_id : is_int (gId g); go_type : is_int (gType g); go_atoms : Forall is_int (gAtoms g) /\ length (gAtoms g) = N;
  go_flags : is_uint (gFlags g);
  go_ptrs : length (gPtrs g) = N /\ gNPtr g = Z.of_nat (length (filter (fun p => is_Some p) (gPtrs g))) }.

(** What a receiver has after an item was unpacked into an object. *)
Definition got_atom (h : bool) (src tgt : datom) : datom :=
  DA (aId src) (aType src) (aPos src) (aVel src) (aFlags src) (aGroups src) (if h then aCtx src else aCtx tgt) (aMask src) (aForce tgt).
Definition got_ghost (h : bool) (src tgt : datom) : datom :=
  DA (aId src) (aType src) (aPos src) (aVel tgt) (aFlags src) (aGroups tgt) (if h then aCtx src else aCtx tgt) (aMask tgt) (aForce tgt).
Definition got_update (src tgt : datom) : datom :=
  DA (aId tgt) (aType tgt) (aPos src) (aVel tgt) (aFlags tgt) (aGroups tgt) (aCtx tgt) (aMask tgt) (aForce tgt).
Definition got_force (fadd : Z -> Z -> Z) (src tgt : datom) : datom :=
  DA (aId tgt) (aType tgt) (aPos tgt) (aVel tgt) (aFlags tgt) (aGroups tgt) (aCtx tgt) (aMask tgt)
     (fadd (aForce tgt).1.1 (aForce src).1.1, fadd (aForce tgt).1.2 (aForce src).1.2, fadd (aForce tgt).2 (aForce src).2).
Definition got_group (N : nat) (src tgt : dgroup) : dgroup :=
  DG (gId src) (gType src) (gAtoms src) (replicate N None) 0 (gFlags src).

(** The sender's items and the receiver's objects are of the same kind, and as many. *)
Definition fits (src tgt : content) : Prop :=
  match src, tgt with
  | CAtoms l, CAtoms t | CGhosts l, CGhosts t | CUpdates l, CUpdates t | CForces l, CForces t =>
      Forall atom_ok l /\ length l = length t
  | CGroups N l, CGroups N' t => N = N' /\ is_int (Z.of_nat N + 3) /\ Forall (group_ok N) l /\ Forall (group_ok N) t /\ length l = length t
  | _, _ => False
  end.
Definition got (h : bool) (fadd : Z -> Z -> Z) (src tgt : content) : content :=
  match src, tgt with
  | CAtoms l, CAtoms t => CAtoms (zip_with (got_atom h) l t)
  | CGhosts l, CGhosts t => CGhosts (zip_with (got_ghost h) l t)
  | CUpdates l, CUpdates t => CUpdates (zip_with got_update l t)
  | CForces l, CForces t => CForces (zip_with (got_force fadd) l t)
  | CGroups N l, CGroups _ t => CGroups N (zip_with (got_group N) l t)
  | _, t => t
  end.

(** Every state a buffer can get into, by any calls of its functions in any order. *)
Inductive buffer_state (h : bool) : buffer -> Prop :=
| BS_allocate a g m1 m2 b : bf_allocate h a g m1 m2 = Ok b -> buffer_state h b
| BS_clear b : buffer_state h b -> buffer_state h (bf_clear b)
| BS_begin b ty b' : buffer_state h b -> bf_begin b ty = Ok b' -> buffer_state h b'
| BS_pack b bs b' : buffer_state h b -> bf_pack b bs = Ok b' -> buffer_state h b'
| BS_incr b : buffer_state h b -> buffer_state h (bf_incr b)
| BS_end b c b' : buffer_state h b -> bf_end b c = Ok b' -> buffer_state h b'
| BS_beginRecv b b' c : buffer_state h b -> bf_beginRecv b = Ok (b', c) -> buffer_state h b'
| BS_unpack b n b' l : buffer_state h b -> bf_unpack b n = Ok (b', l) -> buffer_state h b'
| BS_decr b : buffer_state h b -> buffer_state h (bf_decr b)
| BS_endRecv b b' : buffer_state h b -> bf_endRecv b = Ok b' -> buffer_state h b'
| BS_transfer s r r' : buffer_state h s -> buffer_state h r -> bf_transfer s r = Ok r' -> buffer_state h r'.

(** ** Sizes *)
(** The number of bytes of a block, with its header of four ints. *)
Definition sum_nat (l : list nat) : nat := foldr Nat.add 0%nat l.
Definition wire_size (h : bool) (c : content) : nat :=
  (16 + match c with
        | CAtoms l => sum_nat (map (fun a => (if h then 80 else 68) + 4 * length (aMask a)) l)
        | CGhosts l => (if h then 48 else 36) * length l
        | CUpdates l | CForces l => 24 * length l
        | CGroups N l => (12 + 4 * N) * length l
        end)%nat.
(** The contents of a block that are legal. *)
Definition content_ok (c : content) : Prop :=
  match c with
  | CAtoms l | CGhosts l | CUpdates l | CForces l => Forall atom_ok l
  | CGroups N l => is_int (Z.of_nat N + 3) /\ Forall (group_ok N) l
  end.
Definition content_empty (c : content) : Prop :=
  match c with CAtoms l | CGhosts l | CUpdates l | CForces l => l = [] | CGroups _ l => l = [] end.
