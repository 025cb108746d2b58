(** What conversions of coordinates and snapshots should do. *)
From Verif Require Import Base Containers AtomMapModel AtomStorageModel AtomStorageSpec Vec3 BoxSpec OrthoModel OrthoSpec MonoModel MonoSpec CoordModel.
From stdpp Require Import gmap.
From Coq Require Import Reals.
Local Open Scope R_scope.

(** An atom in use, local or ghost. *)
Definition in_use (s : coords) (p : ptr) : Prop :=
  match p with PL n => n ∈ aSet (coS s) | PG n => n ∈ gSet (coS s) end.
Definition stored (s : coords) (p : ptr) : vec3 R := match p with PL n => coL s n | PG n => coG s n end.
(** Where the atom is, whatever the kind of coordinates kept. *)
Definition place (t : transform) (s : coords) (p : ptr) : vec3 R := if coCart s then stored s p else tCart t (stored s p).
(** The transformations of one of the two kinds of boundary. *)
Definition a_transform (t : transform) : Prop :=
  (exists b, a_box b /\ t = Tf (cartToGen b) (genToCart b)) \/ (exists b, a_mbox b /\ t = Tf (mono_cartToGen b) (mono_genToCart b)).
(** Operations of a history: slots exist; the snapshot is made through [CoSnapshot] only. *)
Definition co_op_ok (capA capG : nat) (o : co_op) : Prop :=
  match o with
  | CoStore OMakeSnapshot | CoStore OClearSnapshot => False
  | CoStore o => st_op_ok capA capG o
  | _ => True
  end.
(** Operations other than removal of local atoms and taking or clearing snapshots. *)
Definition keeps_snapshot (o : co_op) : Prop :=
  match o with CoStore (ORemoveAtom _) | CoSnapshot | CoClearSnapshot => False | _ => True end.
(** Any requests to convert. *)
Inductive conversions (t : transform) : list co_op -> Prop :=
| cv_nil : conversions t []
| cv_gen l : conversions t l -> conversions t (CoToGen t :: l)
| cv_cart l : conversions t l -> conversions t (CoToCart t :: l).
(** The largest of the squares [f n], n in [l], and 0. *)
Definition is_max (l : list nat) (f : nat -> R) (m : R) : Prop :=
  (forall n, n ∈ l -> f n <= m) /\ (m = 0 \/ exists n, n ∈ l /\ f n = m) /\ 0 <= m.
(** [s] is reached from a snapshot taken in state [s0] by operations that keep the atoms. *)
Definition after_snapshot (s0 s : coords) : Prop :=
  exists choose capA capG total pl pg sn ops s1 ops', length sn = capA /\
    Forall (co_op_ok capA capG) ops /\ co_run choose (co_init capA capG total pl pg sn) ops = Some s0 /\ coCart s0 = true /\
    makeSnapshot s0 = Ok s1 /\ Forall keeps_snapshot ops' /\ Forall (co_op_ok capA capG) ops' /\ co_run choose s1 ops' = Some s.
