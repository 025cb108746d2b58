(** What external fields should be. *)
From Verif Require Import Base Vec3 BoxSpec GradSpec.
From Coq Require Import Reals.
From Coquelicot Require Import Coquelicot.
Local Open Scope R_scope.

(** A wave: amplitude, wave vector in units of the reciprocal basis of the box, phase, and origin. *)
Record wave := Wave { waAmp : R; waVec : vec3 R; waPhase : R; waOrigin : vec3 R }.
(** Sum of cosines with [per] periods of each wave in a box with edges [L]. *)
Fixpoint cosines (per : Z) (L p : vec3 R) (ws : list wave) : R :=
  match ws with
  | [] => 0
  | w :: ws =>
      let d := vsub p (waOrigin w) in
      waAmp w * cos (2 * PI * IZR per * (vx (waVec w) * vx d / vx L + vy (waVec w) * vy d / vy L + vz (waVec w) * vz d / vz L)
                     + waPhase w) + cosines per L p ws
  end.
(** Clipped cosines as documented (PeriodicExternal.h:22-36, LamellarOrderingExternal.h:23-38): the clip parameter
    is the inverse of 2 pi periodicity interfaceWidth. *)
Definition clipped (pre ext c : R) (per : Z) (width : R) (L p : vec3 R) (ws : list wave) : R :=
  pre * ext * tanh (1 / (2 * PI * IZR per * width) * (c + cosines per L p ws)).
(** The constant is not multiplied by the clip parameter. *)
Definition clipped_plus (pre ext c : R) (per : Z) (width : R) (L p : vec3 R) (ws : list wave) : R :=
  pre * ext * tanh (c + 1 / (2 * PI * IZR per * width) * cosines per L p ws).

(** The force is minus the gradient of the energy at every point. *)
Definition conservative (en : vec3 R -> R) (force : vec3 R -> vec3 R) : Prop :=
  forall p, is_grad en p (vopp (force p)).
(** The same energy at all images of a point in a box with edges [L]. *)
Definition image_invariant (L : vec3 R) (en : vec3 R -> R) : Prop :=
  forall p (n : vec3 Z), en (V3 (vx p + IZR (vx n) * vx L) (vy p + IZR (vy n) * vy L) (vz p + IZR (vz n) * vz L)) = en p.
(** Integer wave vectors. *)
Definition int_vec (v : vec3 R) : Prop := exists n : vec3 Z, v = vmap IZR n.
