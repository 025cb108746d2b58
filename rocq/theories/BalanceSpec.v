(** What it means for an acceptance rule to sample a distribution. *)
From Verif Require Import Base EnergySpec.
From Coq Require Import Reals.
From Coquelicot Require Import Coquelicot.
Local Open Scope R_scope.

(** For a random number r uniform in [0, 1), the event has probability p. *)
Definition prob (event : R -> bool) (p : R) : Prop := is_RInt (fun r => if event r then 1 else 0) 0 1 p.

(** Finitely many states [S]; from x the move proposes y with probability q x y and then accepts it with probability
    acc x y; otherwise the state stays x. *)
Definition step_prob {T} `{EqDecision T} (S : list T) (q acc : T -> T -> R) (x y : T) : R :=
  (if decide (x = y) then 1 - sum_over S (fun z => q x z * acc x z) else 0) + q x y * acc x y.
(** A distribution that one step leaves as it is. *)
Definition invariant {T} (S : list T) (P : T -> T -> R) (pi : T -> R) : Prop :=
  forall y, y ∈ S -> sum_over S (fun x => pi x * P x y) = pi y.

(** The same for densities on any space of states.  [Int f a] says that f is integrable over the space, with respect to some
    measure, with integral a; q x y is the density of proposing y from x.  The density after one step is what arrives at y
    from elsewhere, and what was at y and was not moved. *)
Definition homogeneous {T} (Int : (T -> R) -> R -> Prop) : Prop :=
  (forall f g a, (forall x, f x = g x) -> Int f a -> Int g a) /\ forall c f a, Int f a -> Int (fun x => c * f x) (c * a).
Definition invariant_density {T} (Int : (T -> R) -> R -> Prop) (q acc : T -> T -> R) (pi : T -> R) : Prop :=
  forall y out, Int (fun z => q y z * acc y z) out ->
    exists arriving, Int (fun x => pi x * (q x y * acc x y)) arriving /\ arriving + pi y * (1 - out) = pi y.
