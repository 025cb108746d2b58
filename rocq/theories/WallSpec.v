(** What wall potentials should be. *)
From Verif Require Import Base Vec3 BoxSpec GradSpec WallModel.
From Coq Require Import Reals.
From Coquelicot Require Import Coquelicot.
Local Open Scope R_scope.

(** Distance to the nearer of the walls at 0 and L. *)
Definition wall_dist (L x : R) : R := Rmin x (L - x).
(** The 9-3 potential of a wall, cut off without shift (the constant makes it small at its minimum). *)
Definition wall93 (eps sig cut d : R) : R :=
  if Rlt_dec d cut then
    4 * eps * PI / 45 * (7 / 10) * (sig * sig * sig) *
    ((sig / d) ^ 9 - 75 / 10 * (sig / d) ^ 3 + 7905694 / 1000000)
  else 0.
(** Outside the clamped core of the wall potential. *)
Definition outside_core (sig L x : R) : Prop :=
  129615 / 1000000 * (sig * sig * sig) < wall_dist L x * wall_dist L x * wall_dist L x.
(** [x] lies in the box and outside the cores of both walls. *)
Definition in_box (sig L x : R) : Prop := 0 < x < L /\ outside_core sig L x.
(** Points where nothing is switched. *)
Definition regular (cut L x : R) : Prop :=
  wall_dist L x <> cut /\ (x <> L / 2 \/ cut < L / 2).

(** A wall potential as seen from outside: its parameters are read, then changed with set(). *)
Definition slit_life (eps sig cut : R) (ops : list (wname * R)) : outcome wall :=
  run (fun w o => slit_set w (fst o) (snd o)) (wall_read eps sig cut) ops.
Definition box_life (eps sig cut : R) (ops : list (wname * R)) : outcome wall :=
  run (fun w o => box_set w (fst o) (snd o)) (wall_read eps sig cut) ops.

(** The force is minus the gradient wherever there is one. *)
Definition force_is_gradient (en : vec3 R -> R) (force : vec3 R -> vec3 R) (p : vec3 R) : Prop :=
  forall g, is_grad en p g -> force p = vopp g.
