(** Triples indexed by the Cartesian axis 0, 1, 2 (Util::Vector, Util::IntVector of
    the missing submodule src/util; Util::Dimension = 3). *)
From Verif Require Import Base.

(** util/space/Vector.h, IntVector.h, documented. *)
Record vec3 (A : Type) := V3 { vx : A; vy : A; vz : A }.
Arguments V3 {A} _ _ _.
Arguments vx {A} _.
Arguments vy {A} _.
Arguments vz {A} _.

(** operator[] ; an index above 2 is never used by the model.  util/space/Vector.h, IntVector.h, documented. *)
Definition vget {A} (v : vec3 A) (i : nat) : A :=
  match i with 0 => vx v | 1 => vy v | _ => vz v end.
(** util/space/Vector.h, IntVector.h, documented. *)
Definition vset {A} (v : vec3 A) (i : nat) (a : A) : vec3 A :=
  match i with
  | 0 => V3 a (vy v) (vz v)
  | 1 => V3 (vx v) a (vz v)
  | _ => V3 (vx v) (vy v) a
  end.

Lemma vget_vset_eq {A} (v : vec3 A) i a : vget (vset v i a) i = a.
Proof. by destruct i as [|[|]]. Qed.
Lemma vget_vset_ne {A} (v : vec3 A) i j a :
  i < 3 -> j < 3 -> i <> j -> vget (vset v i a) j = vget v j.
Proof. destruct i as [|[|[|]]], j as [|[|[|]]]; simpl; intros; done || lia. Qed.
Lemma vec3_ext {A} (v w : vec3 A) : (forall i, i < 3 -> vget v i = vget w i) -> v = w.
Proof.
  intros H. destruct v, w. f_equal; [apply (H 0)|apply (H 1)|apply (H 2)]; lia.
Qed.
Lemma vset_vset {A} (v : vec3 A) i a b : vset (vset v i a) i b = vset v i b.
Proof. by destruct i as [|[|]]. Qed.
Lemma vset_id {A} (v : vec3 A) i : vset v i (vget v i) = v.
Proof. by destruct v, i as [|[|]]. Qed.

(** The same operation on each component (loops over Dimension, e.g. in OrthorhombicBoundary.h). *)
Definition vmap {A B} (f : A -> B) (v : vec3 A) : vec3 B := V3 (f (vx v)) (f (vy v)) (f (vz v)).
