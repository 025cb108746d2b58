(** What a cell list should do, without reference to cells' arrays: it holds atoms at positions. *)
From Verif Require Import Base Vec3 BoxSpec CellListModel.
From stdpp Require Import gmap.
From Coq Require Import Reals.
Local Open Scope R_scope.

(** The atoms held, with their positions. *)
Notation held_at := (gmap nat (vec3 R)).
Definition at_step (h : held_at) (o : clop) : held_at :=
  match o with CAdd a p => <[a := p]> h | CDel a => delete a h | CUpd a p => <[a := p]> h | CClear => ∅ end.
Definition holds (ops : list clop) : held_at := fold_left at_step ops ∅.

(** A position with generalized coordinates in [0,1). *)
Definition primary (g : vec3 R) : Prop := forall i, (i < 3)%nat -> 0 <= vget g i < 1.
(** Number of cells along an axis: the largest whose width is at least the cutoff, but at least 1. *)
Definition grid_count (len cutoff : R) (n : Z) : Prop :=
  (1 <= n)%Z /\ len < IZR (n + 1) * cutoff /\ (n = 1%Z \/ IZR n * cutoff <= len).
Definition grid_of (lens : vec3 R) (cutoff : R) (n : vec3 Z) : Prop :=
  forall i, (i < 3)%nat -> grid_count (vget lens i) cutoff (vget n i).
(** Cell [c] of a grid with [n] cells along each axis contains the point with generalized coordinates [g]. *)
Definition in_cell (n c : vec3 Z) (g : vec3 R) : Prop :=
  forall i, (i < 3)%nat -> IZR (vget c i) / IZR (vget n i) <= vget g i < (IZR (vget c i) + 1) / IZR (vget n i).
Definition same_cell (n : vec3 Z) (g1 g2 : vec3 R) : Prop := exists c, in_cell n c g1 /\ in_cell n c g2.

(** No more than [N] of the atoms in [h] lie in the cell of the point [g]. *)
Definition room (toGen : vec3 R -> vec3 R) (n : vec3 Z) (N : nat) (h : held_at) (g : vec3 R) : Prop :=
  forall l : list nat, NoDup l -> (forall a, a ∈ l -> exists q, h !! a = Some q /\ same_cell n (toGen q) g) ->
  (length l <= N)%nat.

(** Histories that respect the preconditions of the class: atom ids below the capacity, positions in the primary cell,
    atoms added when absent and deleted or updated when present, and never more than [N] + 1 atoms in one cell. *)
Fixpoint cl_proper (toGen : vec3 R -> vec3 R) (n : vec3 Z) (N cap : nat) (h : held_at) (ops : list clop) : Prop :=
  match ops with
  | [] => True
  | o :: ops' =>
      match o with
      | CAdd a p => (a < cap)%nat /\ h !! a = None /\ primary (toGen p) /\ room toGen n N h (toGen p)
      | CDel a => is_Some (h !! a)
      | CUpd a p => is_Some (h !! a) /\ primary (toGen p) /\ room toGen n N (delete a h) (toGen p)
      | CClear => True
      end /\ cl_proper toGen n N cap (at_step h o) ops'
  end.

(** Two points have periodic images that are closer than [c] along each axis, distances along axis i being measured by
    the length of the box along that axis. *)
Definition near (lens : vec3 R) (c : R) (g1 g2 : vec3 R) : Prop :=
  exists k : vec3 Z, forall i, (i < 3)%nat -> Rabs (vget g1 i - vget g2 i + IZR (vget k i)) * vget lens i < c.
(** Cells that touch, with the grid closed periodically. *)
Definition adjacent (n c1 c2 : vec3 Z) : Prop :=
  forall i, (i < 3)%nat -> exists k : Z, (-1 <= vget c1 i - vget c2 i + k * vget n i <= 1)%Z.
