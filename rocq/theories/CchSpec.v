(** What analyzers should be given. *)
From Verif Require Import Base CchModel.
From Coq Require Import Reals.

(** The samples that are due at the steps [l], if the configuration at step i is [c i]: all energies are those of that configuration. *)
Definition due {Conf} (U : nat -> Conf -> R) (ans : list analyzer) (c : nat -> Conf) (l : list nat) : list (entry Conf) :=
  l ≫= fun i => (fun a : analyzer => (i, c i, a.2, (fun k => U k (c i)) <$> a.2)) <$> filter (fun a : analyzer => i mod a.1 = 0) ans.
(** The same with the energies [g]. *)
Definition due_with {Conf} (g : nat -> R) (ans : list analyzer) (c : nat -> Conf) (l : list nat) : list (entry Conf) :=
  l ≫= fun i => (fun a : analyzer => (i, c i, a.2, g <$> a.2)) <$> filter (fun a : analyzer => i mod a.1 = 0) ans.
(** The configuration before step [i] of a run from step [b], if step j changes configurations by [f j]. *)
Definition conf_at {Conf} (f : nat -> Conf -> Conf) (c0 : Conf) (b i : nat) : Conf := fold_left (fun c j => f j c) (seq b (i - b)) c0.
(** The calls that are due for numbered configurations, whatever the energies. *)
Definition due_calls {Conf} (ans : list analyzer) (l : list (nat * Conf)) : list (nat * Conf * list nat) :=
  l ≫= fun p => (fun a : analyzer => (p, a.2)) <$> filter (fun a : analyzer => p.1 mod a.1 = 0) ans.
(** The energies of a sample are those of its configuration. *)
Definition fresh {Conf} (U : nat -> Conf -> R) (e : entry Conf) : Prop := e.2 = (fun k => U k e.1.1.2) <$> e.1.2.
