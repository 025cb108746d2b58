(** What dihedral forces should be. *)
From Verif Require Import Base Vec3 BoxSpec BondModel DihedralModel GradSpec.
From Coq Require Import Reals.
Local Open Scope R_scope.

(** Forces on four atoms: minus the gradient of [en] in the positions, no net force, no torque. *)
Definition dihedral_forces_ok (en : vec3 R -> vec3 R -> vec3 R -> R) (r0 r1 r2 r3 : vec3 R)
  (fs : vec3 R * vec3 R * vec3 R * vec3 R) : Prop :=
  let '(f0, f1, f2, f3) := fs in
  is_grad4 (fun x0 x1 x2 x3 => en (vsub x1 x0) (vsub x2 x1) (vsub x3 x2)) r0 r1 r2 r3
    (vopp f0) (vopp f1) (vopp f2) (vopp f3) /\
  vadd f0 (vadd f1 (vadd f2 f3)) = vzero /\
  vadd (cross r0 f0) (vadd (cross r1 f1) (vadd (cross r2 f2) (cross r3 f3))) = vzero.

(** Cosine of the angle between the planes (b1,b2) and (b2,b3). *)
Definition dihedral_cosine (b1 b2 b3 : vec3 R) : R := cosine (cross b1 b2) (cross b2 b3).
(** Neither plane is degenerate, by the code's criterion. *)
Definition well_defined (b1 b2 b3 : vec3 R) : Prop :=
  1 / 10 ^ 10 < normSq (cross b1 b2) /\ 1 / 10 ^ 10 < normSq (cross b2 b3).
Definition degenerate (b1 b2 b3 : vec3 R) : Prop :=
  normSq (cross b1 b2) < 1 / 10 ^ 10 \/ normSq (cross b2 b3) < 1 / 10 ^ 10.

Definition cd_life (n : nat) (k : ptab) (ops : list (nat * R)) : outcome cdihedral :=
  let? d := cd_setN cd_new n in let? d := cd_read d k in
  run (fun d o => cd_set d (fst o) (snd o)) d ops.
Definition fd_life (n : nat) (ks : list (R * R * R * R * R)) (ops : list (nat * nat * R)) : outcome fdihedral :=
  let? d := fd_setN fd_new n in let? d := fd_read d ks in
  run (fun d o => fd_set d (fst (fst o)) (snd (fst o)) (snd o)) d ops.
