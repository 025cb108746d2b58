(** Model of the positions kept by DdMd::AtomStorage: the flag isCartesian_, the two conversions, and the snapshot of
    positions.  It extends AtomStorageModel by the positions of all slots; coordinates are real numbers. *)
From Verif Require Import Base Containers AtomMapModel SpeciesModel AtomStorageModel Vec3 BoxSpec.
From stdpp Require Import gmap.
From Coq Require Import Reals.
Local Open Scope R_scope.

(** AtomStorage.h:565-610: position of every slot of atoms_ and ghosts_ (Atom::position), isCartesian_, snapshot_. *)
Record coords := Co { coS : storage;  coL : nat -> vec3 R;  coG : nat -> vec3 R;  coCart : bool;  coSnap : list (vec3 R) }.

(** The boundary as the conversions use it: transformCartToGen and transformGenToCart of Boundary
    (OrthorhombicBoundary.h:588-607, MonoclinicBoundary.h:705-724). *)
Record transform := Tf { tGen : vec3 R -> vec3 R;  tCart : vec3 R -> vec3 R }.

(** AtomStorage.cpp:38-49 and 119-145: nothing in use, isCartesian_ false; positions and snapshot_ hold anything. *)
Definition co_init (capA capG total : nat) (pl pg : nat -> vec3 R) (sn : list (vec3 R)) : coords :=
  Co (storage_init capA capG total) pl pg false sn.

(** Atom::position() = r, through a pointer to slot [n].  ddMd/chemistry/Atom.h, position(). *)
Definition put (p : nat -> vec3 R) (n : nat) (r : vec3 R) : nat -> vec3 R := fun m => if decide (m = n) then r else p m.
(** A loop over a set of atoms with r = position(); boundary.transform(r, position()), AtomStorage.cpp:463-466, 470-473,
    489-492, 496-499. *)
Definition convert (f : vec3 R -> vec3 R) (p : nat -> vec3 R) (l : list nat) : nat -> vec3 R :=
  fold_left (fun p n => put p n (f (p n))) l p.

(** AtomStorage.cpp:456-477. *)
Definition cartToGenAll (t : transform) (s : coords) : outcome coords :=
  if negb (coCart s) then Throw else
  Ok (Co (coS s) (convert (tGen t) (coL s) (aSet (coS s))) (convert (tGen t) (coG s) (gSet (coS s))) false (coSnap s)).
(** AtomStorage.cpp:482-503. *)
Definition genToCartAll (t : transform) (s : coords) : outcome coords :=
  if coCart s then Throw else
  Ok (Co (coS s) (convert (tCart t) (coL s) (aSet (coS s))) (convert (tCart t) (coG s) (gSet (coS s))) true (coSnap s)).

(** AtomStorage.cpp:376-390; snapshot_ has atomCapacity_ elements. *)
Definition makeSnapshot (s : coords) : outcome coords :=
  if negb (coCart s) then Throw else
  let? (sn, i) := foldM (fun x n => let '(sn, i) := x in let? sn := aset sn i (coL s n) in Ok (sn, S i)) (coSnap s, 0%nat) (aSet (coS s)) in
  Ok (Co (upd_lock (coS s) true) (coL s) (coG s) (coCart s) sn).
(** AtomStorage.cpp:395-398. *)
Definition clearSnapshot (s : coords) : coords := Co (upd_lock (coS s) false) (coL s) (coG s) (coCart s) (coSnap s).
(** AtomStorage.cpp:403-425. *)
Definition maxSqDisplacement (s : coords) : outcome R :=
  if negb (coCart s) then Throw else
  if negb (locked (coS s)) then Throw else
  let? (m, i) := foldM (fun x n => let '(m, i) := x in
    let? q := aget (coSnap s) i in
    let norm := normSq (vsub (coL s n) q) in
    Ok (if Rgt_dec norm m then norm else m, S i)) (0, 0%nat) (aSet (coS s)) in
  Ok m.

(** Calls of member functions of AtomStorage and assignments to positions; [CoStore] stands for any of the operations of
    AtomStorageModel other than the two of the snapshot.  AtomStorage.h:157-350. *)
Inductive co_op :=
| CoStore (o : st_op) | CoPut (p : ptr) (r : vec3 R) | CoToGen (t : transform) | CoToCart (t : transform)
| CoSnapshot | CoClearSnapshot.

Section Run.
  Variable choose : list ptr -> nat.
  (** One call; a call that throws leaves the state it reached.  The functions above throw before they change anything.  AtomStorage.cpp:187-505. *)
  Definition co_step (s : coords) (o : co_op) : res coords unit :=
    let lift (r : outcome coords) := match r with Ok s' => ROk s' tt | Throw => RThrow s | UB => RUB end in
    match o with
    | CoStore o =>
        match st_step choose (coS s) o with
        | ROk x _ => ROk (Co x (coL s) (coG s) (coCart s) (coSnap s)) tt
        | RThrow x => RThrow (Co x (coL s) (coG s) (coCart s) (coSnap s))
        | RUB => RUB
        end
    | CoPut (PL n) r => ROk (Co (coS s) (put (coL s) n r) (coG s) (coCart s) (coSnap s)) tt
    | CoPut (PG n) r => ROk (Co (coS s) (coL s) (put (coG s) n r) (coCart s) (coSnap s)) tt
    | CoToGen t => lift (cartToGenAll t s)
    | CoToCart t => lift (genToCartAll t s)
    | CoSnapshot => lift (makeSnapshot s)
    | CoClearSnapshot => ROk (clearSnapshot s) tt
    end.
  (** A history of calls.  AtomStorage.cpp:187-505. *)
  Fixpoint co_run (s : coords) (ops : list co_op) : option coords :=
    match ops with
    | [] => Some s
    | o :: ops =>
        match co_step s o with
        | ROk s' _ | RThrow s' => co_run s' ops
        | RUB => None
        end
    end.
End Run.

(** Integrator::isExchangeNeeded, Integrator.cpp:240-264: every processor computes its own flag, and Allreduce with MPI::MAX
    gives all of them the same answer; [nodes] are the storages of all processors. *)
Definition isExchangeNeeded (skin : R) (nodes : list coords) : outcome bool :=
  let? flags := foldM (fun l s =>
    if negb (coCart s) then Throw else
    let? m := maxSqDisplacement s in Ok (l ++ [if Rgt_dec (sqrt m) (1/2 * skin) then true else false])) [] nodes in
  Ok (existsb (fun b => b) flags).
