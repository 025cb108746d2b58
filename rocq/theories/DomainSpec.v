(** What the processor grid is supposed to be. *)
From Verif Require Import Base Vec3 DomainModel.
From Coq Require Import Reals.
Local Open Scope Z_scope.

Definition grid_ok (d : vec3 Z) : Prop := 0 < vx d /\ 0 < vy d /\ 0 < vz d.
Definition grid_size (d : vec3 Z) : Z := vx d * vy d * vz d.
Definition in_grid (d p : vec3 Z) : Prop :=
  0 <= vx p < vx d /\ 0 <= vy p < vy d /\ 0 <= vz p < vz d.

(** Step to the next processor: direction 0 goes down, direction 1 goes up. *)
Definition step_of (j : nat) : Z := match j with 0%nat => -1 | _ => 1 end.

(** [d] describes the processor of rank [r] in the grid [dims]. *)
Definition domain_of (dims : vec3 Z) (r : Z) (D : domain) : Prop :=
  domain_initialize dims (grid_size dims) r = Ok D.

Definition in_cell (pos : vec3 R) : Prop :=
  (0 <= vx pos < 1 /\ 0 <= vy pos < 1 /\ 0 <= vz pos < 1)%R.
