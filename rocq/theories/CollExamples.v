(** Examples for the collectors and the distribution of groups, and where they fail. *)
From Verif Require Import Base Containers Vec3 OrthoModel SpeciesModel SpeciesProofs SimProofs BufferModel BufferSpec BufferProofs DistModel DistProofs DistProps DistExamples
  CollModel CollProofs GDistModel GDistSpec GDistProofs GDistProps CollProps.
From Coq Require Import Reals Lra.
Local Open Scope nat_scope.

(** ** Atoms *)
(** Four processors, one of them without atoms; blocks of one atom, an array of two. *)
Definition four_stores : list (list patom) := [[left_at 0; left_at 4]; [right_at 1; right_at 2]; []; [right_at 3]].
Example four_collected : collects (fun _ => true) (patom_bytes false) (bCap buf1) (Z.to_nat (bAtomCap buf1)) 2 four_stores
  [left_at 0; left_at 4; right_at 1; right_at 2; right_at 3].
Proof.
  apply (atom_collector false buf1 2 [left_at 0; left_at 4] [[right_at 1; right_at 2]; []; [right_at 3]]); [apply buf1_ok|lia|].
  intros l a Hl Ha. repeat (apply elem_of_cons in Hl as [->|Hl]; [repeat (apply elem_of_cons in Ha as [->|Ha]; [cbn; lia|]); by apply elem_of_nil in Ha|]).
  by apply elem_of_nil in Hl.
Qed.
(** Refuted for atoms that mask four others: the processor that packs a full block throws. *)
Theorem atom_collector_refuted : exists (b : buffer) (m : list patom) (ss : list (list patom)) (c : @coll patom),
  buffer_state false b /\ (forall l a, l ∈ ss -> a ∈ l -> tMask a <= 4) /\ coll_setup 256 (m :: ss) = Ok c /\
  forall n fuel, 1 < n -> 0 < fuel -> collect (fun _ => true) (patom_bytes false) (bCap b) (Z.to_nat (bAtomCap b)) 256 n fuel c = Throw.
Proof.
  exists buf1, [left_at 0], [[PA 1 posR 4 []]]. eexists. split; [apply buf1_ok|]. split.
  { intros l a Hl Ha. apply elem_of_list_singleton in Hl as ->. apply elem_of_list_singleton in Ha as ->. cbn. lia. }
  split; [reflexivity|]. intros [|[|n]] [|fuel]; try lia. intros _ _. reflexivity.
Qed.
Print Assumptions atom_collector_refuted.

(** ** Groups *)
(** Two processors, six atoms, three bonds; the second one joins atoms of different processors. *)
Definition at_ (id : Z) : patom := PA id posL 0 [].
Definition two_procs : list pstore := [PS 6 6 [at_ 0; at_ 1; at_ 2]; PS 6 6 [at_ 4; at_ 3; at_ 5]].
Definition bond (id i j : Z) : pgroup := PG id 0 [i; j] [None; None].
Definition three_bonds : list pgroup := [bond 0 0 1; bond 2 4 2; bond 1 3 4].
Lemma ids0 i : i ∈ local_ids (PS 6 6 [at_ 0; at_ 1; at_ 2]) <-> (0 <= i < 3)%Z.
Proof. cbn. rewrite !elem_of_cons, elem_of_nil. lia. Qed.
Lemma ids1 i : i ∈ local_ids (PS 6 6 [at_ 4; at_ 3; at_ 5]) <-> (3 <= i < 6)%Z.
Proof. cbn. rewrite !elem_of_cons, elem_of_nil. lia. Qed.
Example three_distributable : gdistributable 2 buf1 2 two_procs [PGS 2 3 []; PGS 3 3 []] three_bonds.
Proof.
  assert (Hin : forall g, g ∈ three_bonds -> length (gpAtoms g) = 2 /\ (0 <= gpId g < 3)%Z /\ forall i, i ∈ gpAtoms g -> (0 <= i < 6)%Z).
  { intros g Hg. repeat (apply elem_of_cons in Hg as [->|Hg]; [split; [done|]; split; [cbn; lia|]; intros i; cbn; rewrite !elem_of_cons, elem_of_nil; lia|]).
    by apply elem_of_nil in Hg. }
  split.
  - done.
  - done.
  - split; [lia|]. intros g Hg. by apply Hin.
  - cbn. repeat (apply NoDup_cons; split; [rewrite ?elem_of_cons, elem_of_nil; lia|]). constructor.
  - intros g i s Hg Hi Hs. destruct (Hin g Hg) as (_ & _ & HR). specialize (HR i Hi).
    repeat (apply elem_of_cons in Hs as [->|Hs]; [cbn; lia|]). by apply elem_of_nil in Hs.
  - intros g i Hg Hi. destruct (Hin g Hg) as (_ & _ & HR). specialize (HR i Hi).
    destruct (decide (i < 3)%Z).
    + exists 0. eexists. split; [reflexivity|]. split; [apply ids0; lia|]. intros [|[|r']] s'; cbn [two_procs lookup list_lookup]; intros [= <-] Hs'; [done|]. apply ids1 in Hs'. lia.
    + exists 1. eexists. split; [reflexivity|]. split; [apply ids1; lia|]. intros [|[|r']] s'; cbn [two_procs lookup list_lookup]; intros [= <-] Hs'; [|done]. apply ids0 in Hs'. lia.
  - intros [|[|r]] l s; cbn [two_procs lookup list_lookup]; intros [= <-] [= <-]; (split; [done|]); (split; [intros g Hg; cbn; destruct (Hin g Hg); lia|]); apply Nat.leb_le; reflexivity.
  - split; [lia|]. apply Nat.leb_le; reflexivity.
Qed.
Example three_distributed : exists d', gdistribute 2 buf1 two_procs (gd_make 2 (PGS 2 3 [])) [PGS 2 3 []; PGS 3 3 []] three_bonds =
  Ok (Some (d', [PGS 2 3 [PG 0 0 [0; 1]%Z [Some 0; Some 1]%Z; PG 2 0 [4; 2]%Z [None; Some 2%Z]];
                 PGS 3 3 [PG 2 0 [4; 2]%Z [Some 4%Z; None]; PG 1 0 [3; 4]%Z [Some 3; Some 4]%Z]])).
Proof. eexists. vm_compute. reflexivity. Qed.
(** The bond between the processors is returned once, by the processor of its first atom. *)
Example three_collected : exists c c', coll_setup 2 [[PG 0 0 [0; 1]%Z [Some 0; Some 1]%Z; PG 2 0 [4; 2]%Z [None; Some 2%Z]];
     [PG 2 0 [4; 2]%Z [Some 4%Z; None]; PG 1 0 [3; 4]%Z [Some 3; Some 4]%Z]] = Ok c /\
  collect first_local (fun _ => group_bytes 2) (bCap buf1) (groupCapacity buf1 2) 2 10 10 c =
  Ok (Some ([PG 0 0 [0; 1]%Z [Some 0; Some 1]%Z; PG 2 0 [4; 2]%Z [Some 4%Z; None]; PG 1 0 [3; 4]%Z [Some 3; Some 4]%Z], c')).
Proof. eexists _, _. split; [reflexivity|]. vm_compute. reflexivity. Qed.

(** Refuted without a spare place: receive takes a place of the GroupStorage before it knows whether it needs it, so that a processor whose storage is just large enough
    throws when a group of other processors follows. *)
Theorem group_spare_refuted : exists (ls : list pstore) (ss : list pgstore) (groups : list pgroup),
  (forall r l s, ls !! r = Some l -> ss !! r = Some s -> pgGroups s = [] /\ length (groups_on l groups) <= pgCap s) /\
  (exists ss1, gdistributable 2 buf1 2 ls ss1 groups) /\
  gdistribute 2 buf1 ls (gd_make 2 (PGS 2 3 [])) ss groups = Throw.
Proof.
  exists two_procs, [PGS 2 3 []; PGS 2 3 []], [bond 2 4 2; bond 1 3 4; bond 0 0 1]. split.
  { intros [|[|r]] l s; cbn [two_procs lookup list_lookup]; intros [= <-] [= <-]; (split; [done|]); apply Nat.leb_le; reflexivity. }
  split; [|reflexivity]. exists [PGS 2 3 []; PGS 3 3 []]. pose proof three_distributable as [A1 A2 A3 A4 A5 A6 A7 A8].
  assert (HP : forall g, g ∈ [bond 2 4 2; bond 1 3 4; bond 0 0 1] -> g ∈ three_bonds).
  { intros g. unfold three_bonds. rewrite !elem_of_cons. tauto. }
  split; try done.
  - split; [lia|]. intros g Hg. by apply A3, HP.
  - cbn. repeat (apply NoDup_cons; split; [rewrite ?elem_of_cons, elem_of_nil; lia|]). constructor.
  - intros g i s Hg. by apply A5, HP.
  - intros g i Hg. by apply A6, HP.
  - intros [|[|r]] l s Hl Hs; destruct (A7 _ _ _ Hl Hs) as (B1 & B2 & B3); (split; [done|]); (split; [intros g Hg; by apply B2, HP|]); cbn in Hl, Hs; simplify_eq; apply Nat.leb_le; reflexivity.
Qed.
Print Assumptions group_spare_refuted.

(** Refuted if a full cache is larger than the buffer: the default capacity of the cache is 1024, whatever the buffer. *)
Theorem group_cache_refuted : exists (groups : list pgroup), length groups <= 1024 /\ NoDup (map gpId groups) /\
  (forall g i, g ∈ groups -> i ∈ gpAtoms g -> i ∈ local_ids (PS 6 6 [at_ 0; at_ 1; at_ 2])) /\
  gdistribute 2 buf1 [PS 6 6 [at_ 0; at_ 1; at_ 2]; PS 6 6 []] (gd_make 1024 (PGS 9 9 [])) [PGS 9 9 []; PGS 9 9 []] groups = Throw.
Proof.
  exists [bond 0 0 1; bond 1 1 2; bond 2 0 2; bond 3 1 0; bond 4 2 1]. split; [cbn; lia|]. split; [|split].
  - cbn. repeat (apply NoDup_cons; split; [rewrite ?elem_of_cons, elem_of_nil; lia|]). constructor.
  - intros g i Hg. repeat (apply elem_of_cons in Hg as [->|Hg]; [cbn; rewrite !elem_of_cons, elem_of_nil; lia|]). by apply elem_of_nil in Hg.
  - reflexivity.
Qed.
Print Assumptions group_cache_refuted.

(** Refuted if the data of the buffer is a whole number of groups: the buffer is one byte short (see C22), so that groupCapacity() groups do not fit. *)
Definition buf2 : buffer := match bf_allocate false 2 1 (fun _ => 0%Z) (fun _ => 0%Z) with Ok b => b | _ => BF 0 0 0 0 [] None None 0 0 [] 0 0 0 0 end.
Definition angle (id : Z) : pgroup := PG id 0 [0; 1; 2]%Z [Some 0; Some 1; Some 2]%Z.
Theorem group_collector_refuted : exists (b : buffer) (ss : list (list pgroup)) (c : @coll pgroup),
  buffer_state false b /\ groupCapacity b 3 = 7 /\ (forall l, l ∈ ss -> length (List.filter first_local l) = 7) /\ coll_setup 256 ([] :: ss) = Ok c /\
  forall n fuel, 0 < n -> 0 < fuel -> collect first_local (fun _ => group_bytes 3) (bCap b) (groupCapacity b 3) 256 n fuel c = Throw.
Proof.
  exists buf2, [map angle [0; 1; 2; 3; 4; 5; 6]%Z]. eexists.
  split; [apply (BS_allocate false 2 1 (fun _ => 0%Z) (fun _ => 0%Z)); reflexivity|]. split; [reflexivity|]. split.
  { intros l Hl. apply elem_of_list_singleton in Hl as ->. reflexivity. }
  split; [reflexivity|]. intros [|n] [|fuel]; try lia. intros _ _. reflexivity.
Qed.
Print Assumptions group_collector_refuted.
