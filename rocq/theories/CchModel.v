(** Model of the main loop of McSimulation and of the loops that analyze configuration files and trajectories (src/mcMd), as far as the analyzers and the
    energies stored by the potentials are concerned.  Left out: stresses, which are stored likewise, timers, restart files and the output of analyzers.
    A Monte Carlo move is any function of the state. *)
From Verif Require Import Base.
From Coq Require Import Reals.
Local Open Scope R_scope.

(** A configuration, and the members energy_ of the potentials, EnergyCalculator.h:51. *)
Record est (Conf : Type) := ES { eConf : Conf; eCache : nat -> option R }.
Arguments ES {Conf} _ _.
Arguments eConf {Conf} _.
Arguments eCache {Conf} _ _.
(** An analyzer: its interval, Analyzer.h:220, and the potentials whose energies it uses, as in mcSystem/McEnergyAnalyzer.cpp:218-287. *)
Definition analyzer : Type := nat * list nat.
(** What an analyzer got: iStep, the configuration, the potentials and their energies, AverageListAnalyzer.tpp:104-110. *)
Definition entry (Conf : Type) : Type := nat * Conf * list nat * list R.

Section Ana.
  (** [U k]: the value that computeEnergy of potential [k] stores.  [base]: Analyzer::baseInterval; [ans]: the analyzers, whose intervals are positive. *)
  Context {Conf : Type}.
  Variables (U : nat -> Conf -> R) (base : nat) (ans : list analyzer).

  (** energy, EnergyCalculator.cpp:24-30. *)
  Definition energy (s : est Conf) (k : nat) : est Conf * R :=
    match eCache s k with
    | Some v => (s, v)
    | None => let v := U k (eConf s) in (ES (eConf s) (fun j => if decide (j = k) then Some v else eCache s j), v)
    end.
  (** positionSignal().notify(): unsetPotentialEnergies, McSystem.cpp:93 and 544-568. *)
  Definition notify (s : est Conf) : est Conf := ES (eConf s) (fun _ => None).
  (** compute, mcSystem/McEnergyAnalyzer.cpp:218-287. *)
  Fixpoint compute (ks : list nat) (s : est Conf) : est Conf * list R :=
    match ks with
    | [] => (s, [])
    | k :: ks => let '(s, v) := energy s k in let '(s, vs) := compute ks s in (s, v :: vs)
    end.
  (** sample of one analyzer, AverageListAnalyzer.tpp:104-110. *)
  Definition sample_one (i : nat) (a : analyzer) (s : est Conf) : est Conf * list (entry Conf) :=
    if decide (i mod a.1 = 0)%nat then let '(s', vs) := compute a.2 s in (s', [(i, eConf s, a.2, vs)]) else (s, []).
  (** The loop of AnalyzerManager::sample, AnalyzerManager.cpp:58-60. *)
  Fixpoint sample_each (i : nat) (l : list analyzer) (s : est Conf) : est Conf * list (entry Conf) :=
    match l with
    | [] => (s, [])
    | a :: l => let '(s, e) := sample_one i a s in let '(s, es) := sample_each i l s in (s, e ++ es)
    end.
  (** AnalyzerManager::sample, AnalyzerManager.cpp:54-61. *)
  Definition sample (i : nat) (s : est Conf) : outcome (est Conf * list (entry Conf)) :=
    if decide (0 < base)%nat then if decide (i mod base = 0)%nat then Ok (sample_each i ans s) else Throw else Throw.

  (** The calls of analyzers in simulate, McSimulation.cpp:524-533 and 569-577. *)
  Definition mc_sample (i : nat) (s : est Conf) : outcome (est Conf * list (entry Conf)) :=
    if decide (base <> 0%nat) then
      if decide (i mod base = 0)%nat then
        match ans with
        | [] => Ok (s, [])
        | _ => let? (s, es) := sample i (notify s) in Ok (notify s, es)
        end
      else Ok (s, [])
    else Ok (s, []).
  (** The main loop of simulate, McSimulation.cpp:521-563, for [n] steps from step [i]; [moves i]: the moves of step i, McSimulation.cpp:543-560. *)
  Fixpoint mc_loop (moves : nat -> est Conf -> est Conf) (n i : nat) (s : est Conf) (log : list (entry Conf)) : outcome (est Conf * list (entry Conf)) :=
    match n with
    | O => Ok (s, log)
    | S n => let? (s, es) := mc_sample i s in mc_loop moves n (S i) (moves i s) (log ++ es)
    end.
  (** simulate, McSimulation.cpp:499-577, from step [b] to step [e]. *)
  Definition simulate (moves : nat -> est Conf -> est Conf) (b e : nat) (s : est Conf) : outcome (est Conf * list (entry Conf)) :=
    let? (s, log) := mc_loop moves (e - b) b (notify s) [] in
    let? (s, es) := mc_sample e s in Ok (s, log ++ es).

  (** readConfig or readFrame, and building the cell list, McSimulation.cpp:683-689: none of them changes a stored energy, McSystem.cpp:392-398. *)
  Definition read_config (c : Conf) (s : est Conf) : est Conf := ES c (eCache s).
  (** The main loop of analyzeConfigs, McSimulation.cpp:673-704 and MdSimulation.cpp:567-598, for [n] files from number [i]. *)
  Fixpoint configs_loop (files : nat -> Conf) (n i : nat) (s : est Conf) (log : list (entry Conf)) : outcome (est Conf * list (entry Conf)) :=
    match n with
    | O => Ok (s, log)
    | S n => let? (s, es) := sample i (read_config (files i) s) in configs_loop files n (S i) s (log ++ es)
    end.
  (** analyzeConfigs, McSimulation.cpp:655-721, and if [md], MdSimulation.cpp:549-614.  The configuration that is left is that of the last file; the program
      removes it. *)
  Definition analyze_configs (md : bool) (lo hi : nat) (files : nat -> Conf) (s : est Conf) : outcome (est Conf * list (entry Conf)) :=
    if decide ((md = true \/ 0 < lo) /\ lo < hi /\ 0 < base /\ 0 < length ans)%nat then configs_loop files (hi - lo + 1) lo s [] else Throw.

  (** The main loop of analyzeTrajectory, McSimulation.cpp:753-768 and MdSimulation.cpp:648-663: at most [n] frames of the file from frame [i] on; also the
      final value of iStep_. *)
  Fixpoint frames_loop (frames : list Conf) (n i lo : nat) (s : est Conf) (log : list (entry Conf)) : outcome (est Conf * list (entry Conf) * nat) :=
    match n with
    | O => Ok (s, log, i)
    | S n =>
      match frames with
      | [] => Ok (s, log, S i)
      | c :: frames =>
        let s := read_config c s in
        let? (s, es) := (if decide (lo <= i)%nat then sample i s else Ok (s, [])) in
        frames_loop frames n (S i) lo s (log ++ es)
      end
    end.
  (** analyzeTrajectory, McSimulation.cpp:726-787, and if [md], MdSimulation.cpp:619-680; also the number of frames that is reported. *)
  Definition analyze_trajectory (md : bool) (lo hi : nat) (frames : list Conf) (s : est Conf) : outcome (est Conf * list (entry Conf) * Z) :=
    if decide ((md = true /\ lo < hi /\ 0 < base /\ 0 < length ans) \/ (md = false /\ lo <= hi))%nat then
      let? (s, log, i) := frames_loop frames (S hi) 0 lo s [] in Ok (s, log, (Z.of_nat i - Z.of_nat lo)%Z)
    else Throw.
End Ana.
