(** Property C108: the energies that analyzers are given. *)
From Verif Require Import Base CchModel CchSpec CchProofs.
From Coq Require Import Reals Lra.

(** C108: in simulate, whatever energies are stored at the beginning or left behind by the moves, the analyzers get at each step from [b] to [e] that is a
    multiple of their intervals the energies of the configuration at that step, and do not change the run. *)
Theorem simulate_energies :
  forall Conf (U : nat -> Conf -> R) base ans moves f b e s, 0 < base -> (forall a, a ∈ ans -> Nat.divide base a.1) ->
  (forall i s, eConf (moves i s) = f i (eConf s)) -> b <= e ->
  exists s', simulate U base ans moves b e s = Ok (s', due U ans (conf_at f (eConf s) b) (seq b (S (e - b)))) /\ eConf s' = conf_at f (eConf s) b e.
Proof.
  intros Conf U base ans moves f b e s Hb Hd Hf Hbe. unfold simulate.
  destruct (mc_loop_ok U base ans moves f Hb Hd Hf (e - b) b (notify s) []) as (s1 & -> & E1). cbn [obind app].
  destruct (mc_sample_ok U base ans e s1 Hb Hd) as (s2 & -> & E2). cbn [obind]. exists s2. replace (b + (e - b)) with e in E1 by lia. rewrite E2, E1. split; [|done].
  do 2 f_equal. rewrite seq_S. unfold due. rewrite bind_app. f_equal. cbn. rewrite app_nil_r. unfold got. replace (b + (e - b)) with e by lia. done.
Qed.

(** C108: analyzeConfigs and analyzeTrajectory, if the base interval is 1, call the analyzers for exactly the files or frames asked for, with the right
    configurations. *)
Theorem analyze_calls :
  forall Conf (U : nat -> Conf -> R) ans md lo hi files s, ans <> [] -> md = true \/ 0 < lo -> lo < hi ->
  exists s' log, analyze_configs U 1 ans md lo hi files s = Ok (s', log) /\ fst <$> log = due_calls ans ((fun j => (j, files j)) <$> seq lo (hi - lo + 1)).
Proof.
  intros Conf U ans md lo hi files s Ha Hmd Hlo. unfold analyze_configs. rewrite decide_True by (destruct ans; [done|cbn; lia || (split_and!; try done; lia)]).
  apply (configs_calls U 1 ans files eq_refl _ _ s []).
Qed.
Theorem trajectory_calls :
  forall Conf (U : nat -> Conf -> R) ans md lo hi frames s, ans <> [] -> lo < hi ->
  exists s' log, analyze_trajectory U 1 ans md lo hi frames s = Ok (s', log, if decide (hi < length frames) then (Z.of_nat hi - Z.of_nat lo + 1)%Z else (Z.of_nat (length frames) + 1 - Z.of_nat lo)%Z) /\
  fst <$> log = due_calls ans (filter (fun p : nat * Conf => lo <= p.1) (zip (seq 0 (S hi)) frames)).
Proof.
  intros Conf U ans md lo hi frames s Ha Hlo. unfold analyze_trajectory. rewrite decide_True.
  - destruct (frames_calls U 1 ans lo eq_refl frames (S hi) 0 s []) as (s' & es & -> & E). cbn [obind app]. exists s', es. split; [|done].
    do 2 f_equal. repeat destruct (decide _); lia.
  - destruct ans; [done|]. cbn [length]. destruct md; [left|right]; split_and!; try done; lia.
Qed.

(** C108 is false for the number of frames that analyzeTrajectory reports: it is one too large if the file ends before frame [hi]. *)
Theorem trajectory_count_refuted :
  forall Conf (U : nat -> Conf -> R) iv ks md hi frames s, length frames <= hi -> iv = 1 -> 0 < hi ->
  exists s' log, analyze_trajectory U 1 [(iv, ks)] md 0 hi frames s = Ok (s', log, (Z.of_nat (length log) + 1)%Z) /\ length log = length frames.
Proof.
  intros Conf U iv ks md hi frames s Hlen -> Hhi. destruct (trajectory_calls Conf U [(1, ks)] md 0 hi frames s ltac:(done) Hhi) as (s' & log & E & Hlog).
  assert (length log = length frames) as EL.
  { apply (f_equal length) in Hlog. rewrite fmap_length in Hlog. etransitivity; [exact Hlog|]. assert (forall l : list (nat * Conf), length (due_calls [(1, ks)] (filter (fun p : nat * Conf => 0 <= p.1) l)) = length l) as ->.
    - induction l as [|p l IH]; [done|]. rewrite filter_cons, decide_True by lia. unfold due_calls in *. rewrite bind_cons, app_length, IH. rewrite filter_cons_True by apply Nat.mod_1_r. done.
    - rewrite zip_with_length, seq_length. lia. }
  exists s', log. split; [|done]. rewrite E, decide_False by lia. do 2 f_equal. rewrite EL. lia.
Qed.

(** C108 is false for the energies: neither analyzeConfigs nor readConfig sends the signal that positions changed, so that all samples have the energies of
    the first file. *)
Theorem analyze_stale_refuted :
  forall Conf (U : nat -> Conf -> R) ans md lo hi files s, ans <> [] -> (forall a, a ∈ ans -> a.1 = 1) -> md = true \/ 0 < lo -> lo < hi ->
  (forall k, eCache s k = None) ->
  exists s' log, analyze_configs U 1 ans md lo hi files s = Ok (s', log) /\ log = due_with (fun k => U k (files lo)) ans files (seq lo (hi - lo + 1)) /\
  forall a k i, a ∈ ans -> k ∈ a.2 -> lo <= i <= hi -> U k (files i) <> U k (files lo) -> ~ Forall (fresh U) log.
Proof.
  intros Conf U ans md lo hi files s Ha H1 Hmd Hlo Hs. unfold analyze_configs. rewrite decide_True by (destruct ans; [done|cbn; lia || (split_and!; try done; lia)]).
  replace (hi - lo + 1) with (S (hi - lo)) by lia. cbn [configs_loop]. unfold sample at 1. rewrite decide_True by lia. rewrite decide_True by apply Nat.mod_1_r.
  destruct (each_ok U lo ans (read_config (files lo) s)) as (s1 & -> & _ & _ & E3 & _). cbn [obind app].
  assert (forall k, shown U (read_config (files lo) s) k = U k (files lo)) as Hsh by (intros k; unfold shown; cbn; by rewrite Hs).
  destruct (configs_ok U 1 ans files (fun k => U k (files lo)) eq_refl H1 (hi - lo) (S lo) s1 (got lo (eConf (read_config (files lo) s)) (shown U (read_config (files lo) s)) ans)) as (s' & ->).
  { intros a k Hin Hk. rewrite (E3 a k), Hsh; [done..| |done]. rewrite (H1 a Hin). apply Nat.mod_1_r. }
  do 2 eexists. split; [reflexivity|]. split.
  - rewrite (got_ext _ _ _ (fun k => U k (files lo)) _ Hsh). unfold due_with. cbn [seq]. rewrite bind_cons. done.
  - intros a k i Hin Hk Hi Hne HF. rewrite (got_ext _ _ _ (fun k => U k (files lo)) _ Hsh) in HF.
    assert ((i, files i, a.2, (fun k => U k (files lo)) <$> a.2) ∈ due_with (fun k => U k (files lo)) ans files (seq lo (S (hi - lo)))) as Hel.
    { unfold due_with. apply elem_of_list_bind. exists i. split; [|apply elem_of_list_In, in_seq; lia]. apply elem_of_list_fmap. exists a. split; [done|].
      apply elem_of_list_filter. split; [rewrite (H1 a Hin); apply Nat.mod_1_r|done]. }
    unfold due_with in Hel. cbn [seq] in Hel. rewrite bind_cons in Hel. rewrite Forall_forall in HF. apply HF in Hel. unfold fresh in Hel. cbn in Hel.
    apply Hne. symmetry. by apply (fmap_eq_in _ _ _ _ Hel).
Qed.

(** C108 is false if the base interval is not 1: analyzeConfigs throws for every range of files. *)
Theorem analyze_interval_refuted :
  forall Conf (U : nat -> Conf -> R) base ans md lo hi files s, base <> 1 -> analyze_configs U base ans md lo hi files s = Throw.
Proof.
  intros Conf U base ans md lo hi files s Hb. unfold analyze_configs. destruct (decide _) as [(_ & Hlo & Hpos & _)|]; [|done].
  replace (hi - lo + 1) with (S (S (hi - lo - 1))) by lia. cbn [configs_loop]. unfold sample at 1. rewrite decide_True by lia. destruct (decide (lo mod base = 0)) as [E|]; [|done].
  destruct (sample_each U lo ans _) as [s1 es]. cbn [obind]. unfold sample at 1. rewrite decide_True by lia. rewrite decide_False; [done|].
  intros E'. apply Nat.mod_divide in E, E'; [|lia..]. apply Hb. apply Nat.divide_1_r. apply (Nat.divide_add_cancel_r _ lo); [done|]. by rewrite Nat.add_1_r.
Qed.
(** C108 is false for one file, and in McSimulation if the first number is 0. *)
Theorem analyze_one_refuted :
  forall Conf (U : nat -> Conf -> R) base ans md lo hi files s,
  analyze_configs U base ans md lo lo files s = Throw /\ analyze_configs U base ans false 0 hi files s = Throw.
Proof. intros. unfold analyze_configs. split; rewrite decide_False; try done; intros (H & H1 & _); [lia|destruct H; [done|lia]]. Qed.

(** ** Examples: configurations are numbers, with the energy of potential 0; file i holds configuration i. *)
Definition cx_u (k i : nat) : R := INR (k + i).
Definition cx_an : list analyzer := [(2, [0; 1]); (4, [0])].
(** Moves that raise the number and leave a wrong energy behind. *)
Definition cx_move (i : nat) (s : est nat) : est nat := ES (S (eConf s)) (fun _ => Some 7%R).
Example simulate_meets : forall s : est nat, eConf s = 5 ->
  exists s', simulate cx_u 2 cx_an cx_move 0 4 s =
    Ok (s', [(0, 5, [0; 1], [cx_u 0 5; cx_u 1 5]); (0, 5, [0], [cx_u 0 5]); (2, 7, [0; 1], [cx_u 0 7; cx_u 1 7]); (4, 9, [0; 1], [cx_u 0 9; cx_u 1 9]); (4, 9, [0], [cx_u 0 9])]) /\ eConf s' = 9.
Proof.
  intros s Hs. destruct (simulate_energies nat cx_u 2 cx_an cx_move (fun _ => S) 0 4 s) as (s' & E & E').
  - lia.
  - intros a Ha. unfold cx_an in Ha. rewrite !elem_of_cons, elem_of_nil in Ha. destruct Ha as [->|[->|[]]]; [by exists 1|by exists 2].
  - done.
  - lia.
  - exists s'. rewrite E, E', Hs. done.
Qed.
Example analyze_calls_meets : exists s' log, analyze_configs cx_u 1 [(1, [0])] false 1 3 (fun i => i) (ES 0 (fun _ => None)) = Ok (s', log) /\
  fst <$> log = [(1, 1, [0]); (2, 2, [0]); (3, 3, [0])].
Proof. apply (analyze_calls nat cx_u [(1, [0])] false 1 3 (fun i => i)); [done|right; lia|lia]. Qed.
(** Three frames of a file, of which frames 1 to 5 are asked for. *)
Example trajectory_meets : exists s' log, analyze_trajectory cx_u 1 [(1, [0])] true 1 5 [10; 11; 12] (ES 0 (fun _ => None)) = Ok (s', log, 3%Z) /\
  fst <$> log = [(1, 11, [0]); (2, 12, [0])].
Proof. apply (trajectory_calls nat cx_u [(1, [0])] true 1 5 [10; 11; 12]); [done|lia]. Qed.
Example trajectory_count_meets : exists s' log, analyze_trajectory cx_u 1 [(1, [0])] false 0 5 [10; 11; 12] (ES 0 (fun _ => None)) = Ok (s', log, (Z.of_nat (length log) + 1)%Z) /\ length log = 3.
Proof. apply trajectory_count_refuted; cbn; lia || done. Qed.
(** Files 1 to 3 have the energies 1, 2 and 3; all are reported to have the energy 1. *)
Example analyze_stale_meets : exists s' log, analyze_configs cx_u 1 [(1, [0])] false 1 3 (fun i => i) (ES 0 (fun _ => None)) = Ok (s', log) /\
  log = [(1, 1, [0], [cx_u 0 1]); (2, 2, [0], [cx_u 0 1]); (3, 3, [0], [cx_u 0 1])] /\ ~ Forall (fresh cx_u) log.
Proof.
  destruct (analyze_stale_refuted nat cx_u [(1, [0])] false 1 3 (fun i => i) (ES 0 (fun _ => None))) as (s' & log & E & El & H).
  - done.
  - intros a ->%elem_of_list_singleton. done.
  - right. lia.
  - lia.
  - done.
  - exists s', log. split; [done|]. split; [by rewrite El|]. apply (H (1, [0]) 0 2); [left|left|lia|]. unfold cx_u. cbn. lra.
Qed.
Example analyze_interval_meets : analyze_configs cx_u 2 [(2, [0])] true 0 4 (fun i => i) (ES 0 (fun _ => None)) = Throw.
Proof. by apply analyze_interval_refuted. Qed.
Example analyze_one_meets : analyze_configs cx_u 1 [(1, [0])] true 3 3 (fun i => i) (ES 0 (fun _ => None)) = Throw.
Proof. by apply (analyze_one_refuted nat cx_u 1 [(1, [0])] true 3 3). Qed.

Print Assumptions simulate_energies.
Print Assumptions analyze_calls.
Print Assumptions trajectory_calls.
Print Assumptions trajectory_count_refuted.
Print Assumptions analyze_stale_refuted.
Print Assumptions analyze_interval_refuted.
Print Assumptions analyze_one_refuted.
