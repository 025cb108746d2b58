(** What the neighbour search of the parallel program is supposed to do. *)
From Verif Require Import Base Vec3 BoxSpec OrthoModel MonoModel DomainModel SpeciesModel NbrModel.
From Coq Require Import Reals.
Local Open Scope R_scope.

(** A loop  for (list.begin(it); it.notEnd(); ++it)  with a fresh PairIterator, or with one whose last loop was completed, sees
    exactly the pairs [l], in this order, and then ends. *)
Definition visits (p : dplist) (l : list (nat * nat)) : Prop :=
  dit_end dit_new = true /\ forall it fuel, dit_end it = true -> (length l < fuel)%nat ->
    exists it', dit_loop fuel (dpl_begin p it) = Ok (Some (l, it')) /\ dit_end it' = true.

(** The half open region owned by a processor. *)
Definition owned (lower upper x : vec3 R) : Prop :=
  vx lower <= vx x < vx upper /\ vy lower <= vy x < vy upper /\ vz lower <= vz x < vz upper.
(** Atoms held by a processor: addresses are distinct, all fit, and exactly the local atoms lie in the region. *)
Record holding (cap : nat) (lower upper : vec3 R) (locals ghosts : list nat) (g : nat -> vec3 R) : Prop := Holding {
  ho_nodup : NoDup (locals ++ ghosts);
  ho_cap : (length locals + length ghosts <= cap)%nat;
  ho_local : forall a, a ∈ locals -> owned lower upper (g a);
  ho_ghost : forall a, a ∈ ghosts -> ~ owned lower upper (g a) }.

(** Cell lists a simulation can have: new ones, and the results of builds. *)
Inductive a_cell_list : dclist -> Prop :=
| acl_new cap : a_cell_list (dcl_new cap)
| acl_build cap lower upper cutoffs n locals ghosts g s s' : a_cell_list s -> 0 < vx cutoffs /\ 0 < vy cutoffs /\ 0 < vz cutoffs ->
    (length locals + length ghosts <= cap)%nat -> buildCellList cap lower upper cutoffs n locals ghosts g s = Ok s' -> a_cell_list s'.

(** Cutoffs in scaled coordinates: cutoff / boundary.length(i). *)
Definition scaled (cutoff : R) (len : vec3 R) : vec3 R := V3 (cutoff / vx len) (cutoff / vy len) (cutoff / vz len).
Definition within (cutoff : R) (x y : vec3 R) : Prop := normSq (vsub y x) < cutoff * cutoff.

(** The order of cells: lexicographic in the number of cells (of the grid of [n] per cutoff) between the lower corner and the
    atom. *)
Definition cells_across (lo up c : R) (n : Z) : Z := Int_part ((up - lo) * IZR n / c).
Definition cell_along (lo up c : R) (n : Z) (x : R) : Z := Int_part ((x - lo) / ((up - lo) / IZR (cells_across lo up c n))).
Definition cell_at (lower upper cutoffs : vec3 R) (n : Z) (x : vec3 R) : vec3 Z :=
  V3 (cell_along (vx lower) (vx upper) (vx cutoffs) n (vx x)) (cell_along (vy lower) (vy upper) (vy cutoffs) n (vy x))
     (cell_along (vz lower) (vz upper) (vz cutoffs) n (vz x)).
Definition lex_lt (p q : vec3 Z) : Prop :=
  (vx p < vx q \/ (vx p = vx q /\ (vy p < vy q \/ (vy p = vy q /\ vz p < vz q))))%Z.

(** The pairs a processor must list: every pair of local atoms in one order; every pair of a local atom and a ghost with the
    local atom first, all of them ([rev] off), or those whose ghost lies in a later cell ([rev] on); nothing else,
    and nothing twice. *)
Record counted_once (rev : bool) (locals ghosts : list nat) (near before : nat -> nat -> Prop) (l : list (nat * nat)) : Prop := Counted {
  co_nodup : NoDup l;
  co_sound : forall a b, (a, b) ∈ l -> a ∈ locals /\ b ∈ locals ++ ghosts /\ a <> b /\ near a b;
  co_local : forall a b, a ∈ locals -> b ∈ locals -> a <> b -> near a b -> ((a, b) ∈ l /\ (b, a) ∉ l) \/ ((b, a) ∈ l /\ (a, b) ∉ l);
  co_ghost : forall a b, a ∈ locals -> b ∈ ghosts -> near a b -> ((a, b) ∈ l <-> (rev = false \/ before a b)) }.
(** Pairs within the cutoff which are not masked. *)
Definition interacts (cutoff : R) (r : nat -> vec3 R) (masked : nat -> nat -> bool) (a b : nat) : Prop := within cutoff (r a) (r b) /\ masked a b = false.
(** Masks are symmetric among the atoms of a processor. *)
Definition sym_mask (masked : nat -> nat -> bool) (l : list nat) : Prop := forall a b, a ∈ l -> b ∈ l -> masked a b = masked b a.
(** Least domain the grid accepts, and numbers of cells per cutoff it accepts. *)
Definition wide_enough (lower upper cutoffs : vec3 R) (n : Z) : Prop :=
  (1 <= n <= 4)%Z /\ vx cutoffs <= vx upper - vx lower /\ vy cutoffs <= vy upper - vy lower /\ vz cutoffs <= vz upper - vz lower.
(** The offset [o] lies in one of the strips. *)
Definition in_strips (off : list (Z * Z)) (o : Z) : Prop := exists st, st ∈ off /\ (st.1 <= o <= st.2)%Z.
