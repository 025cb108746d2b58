(** Model of DdMd::GroupDistributor<N> (src/ddMd/communicate/GroupDistributor.tpp).  The master broadcasts all groups; every processor keeps
    those with at least one local atom.  Communication goes one way until the sums at the end, so that the master is run to the end
    first, as in DistModel.  A message is a block of groups and isComplete (C21).  A GroupStorage is modelled by the list of its groups
    (see GroupStorageModel, C20), an AtomStorage by its local atoms (DistModel); there are no ghosts.  A pointer to an atom is the id of that atom. *)
From Verif Require Import Base Containers Vec3 OrthoModel SpeciesModel BufferModel DistModel CollModel.
Local Open Scope nat_scope.

(** Members of Group<N>, Group.h:185-210: the id, the type, the ids of its atoms and the pointers to them. *)
Record pgroup := PG { gpId : Z; gpType : Z; gpAtoms : list Z; gpPtrs : list (option Z) }.
(** Bytes of a group, Group.h, packedSize: id, type, N atom ids, plan. *)
Definition group_bytes (N : nat) : nat := 12 + 4 * N.
(** A group as it arrives: Group::unpack clears the pointers.  src/ddMd/chemistry/Group.h:462-479. *)
Definition pg_unpacked (g : pgroup) : pgroup := PG (gpId g) (gpType g) (gpAtoms g) (map (fun _ => None) (gpAtoms g)).

(** capacity, totalCapacity and the groups of a GroupStorage.  GroupStorage.h:441-477. *)
Record pgstore := PGS { pgCap : nat; pgTotal : nat; pgGroups : list pgroup }.
(** GroupStorage::newPtr, GroupStorage.tpp:138-147: throws if all places are taken. *)
Definition pg_new (s : pgstore) : outcome () := check (bool_decide (length (pgGroups s) < pgCap s)).
(** GroupStorage::add, GroupStorage.tpp:166-194. *)
Definition pg_add (s : pgstore) (g : pgroup) : outcome pgstore :=
  let? _ := check (bool_decide (0 <= gpId g < Z.of_nat (pgTotal s))%Z) in
  let? _ := check (negb (bool_decide (gpId g ∈ map gpId (pgGroups s)))) in
  Ok (PGS (pgCap s) (pgTotal s) (pgGroups s ++ [g])).

(** The ids of the local atoms of a processor.  AtomStorage::map(), used in GroupDistributor.tpp. *)
Definition local_ids (s : pstore) : list Z := map tId (psAtoms s).
(** The loop of AtomMap::findGroupLocalAtoms, AtomMap.h:255-273; reading outside atomPtrs_ is [UB]. *)
Fixpoint find_ptrs (s : pstore) (l : list Z) : outcome (list (option Z)) :=
  match l with
  | [] => Ok []
  | i :: l =>
      let? p := (if decide (0 <= i < Z.of_nat (psTotal s))%Z then Ok (if decide (i ∈ local_ids s) then Some i else None) else UB) in
      let? t := find_ptrs s l in Ok (p :: t)
  end.
(** The number of pointers that are set.  Group::nPtr, src/ddMd/chemistry/Group.h:362-363. *)
Definition n_ptr (l : list (option Z)) : nat := length (List.filter (fun o : option Z => if o then true else false) l).
(** findGroupLocalAtoms: the group with its pointers, and the number of its local atoms.  AtomMap.h:256-274. *)
Definition findGroupLocalAtoms (s : pstore) (g : pgroup) : outcome (pgroup * nat) :=
  let? p := find_ptrs s (gpAtoms g) in Ok (PG (gpId g) (gpType g) (gpAtoms g) p, n_ptr p).

(** Members of GroupDistributor, GroupDistributor.h:165-200: cacheCapacity_, cacheSize_, nSentTotal_, nAtomRecv_; the block being packed, the
    blocks broadcast so far, the storage of the master. *)
Record gdist := GD { gdCap : nat; gdSize : nat; gdSent : nat; gdRecv : nat; gdBlk : list pgroup; gdOut : list (packet pgroup); gdStore : pgstore }.
(** The constructor, GroupDistributor.tpp:27-39, and setCapacity. *)
Definition gd_make (cap : nat) (s : pgstore) : gdist := GD cap 0 0 0 [] [] s.
(** setup, GroupDistributor.tpp:89-104. *)
Definition gd_setup (d : gdist) (s : pgstore) : outcome gdist :=
  let? _ := check (negb (bool_decide (gdCap d = 0))) in Ok (GD (gdCap d) (gdSize d) (gdSent d) 0 [] [] s).
(** newPtr, GroupDistributor.tpp:110-146. *)
Definition gd_newPtr (d : gdist) : outcome gdist :=
  let d := if decide (gdSize d = gdCap d)
           then GD (gdCap d) 0 (gdSent d + gdSize d) (gdRecv d) [] (gdOut d ++ [(gdBlk d, false)]) (gdStore d) else d in
  if decide (gdSize d < gdCap d) then Ok d else UB.
(** add, GroupDistributor.tpp:152-194, of the group [g] the client wrote; [b] is the buffer, [s] the AtomStorage of the master. *)
Definition gd_add (N : nat) (b : buffer) (s : pstore) (d : gdist) (g : pgroup) : outcome gdist :=
  let? (g, nAtom) := findGroupLocalAtoms s g in
  let? st :=
    if decide (0 < nAtom) then
      let? _ := pg_new (gdStore d) in
      let? st := pg_add (gdStore d) g in
      Ok (st, gdRecv d + nAtom)
    else Ok (gdStore d, gdRecv d) in
  if decide (bCap b < 16 + group_bytes N * S (length (gdBlk d))) then Throw
  else Ok (GD (gdCap d) (S (gdSize d)) (gdSent d) st.2 (gdBlk d ++ [pg_unpacked g]) (gdOut d) st.1).
(** The loop of a ConfigIo on the master, DdMdConfigIo.cpp:71-76, and the broadcast of send, GroupDistributor.tpp:229-234. *)
Definition gd_master (N : nat) (b : buffer) (s : pstore) (d : gdist) (st : pgstore) (groups : list pgroup) : outcome gdist :=
  let? d := gd_setup d st in
  let? d := foldM (fun d g => let? d := gd_newPtr d in gd_add N b s d g) d groups in
  Ok (GD (gdCap d) (gdSize d) (gdSent d + gdSize d) (gdRecv d) [] (gdOut d ++ [(gdBlk d, true)]) (gdStore d)).

(** Body of the inner loop of receive, GroupDistributor.tpp:298-312. *)
Definition gd_take (s : pstore) (acc : pgstore * nat) (g : pgroup) : outcome (pgstore * nat) :=
  let? _ := pg_new acc.1 in
  let? (g, nAtom) := findGroupLocalAtoms s (pg_unpacked g) in
  if decide (0 < nAtom) then let? st := pg_add acc.1 g in Ok (st, acc.2 + nAtom) else Ok acc.
(** The loop of receive, GroupDistributor.tpp:291-314: the storage, nAtomRecv_ and the messages left over; [None]: waits forever. *)
Fixpoint gd_receive (s : pstore) (acc : pgstore * nat) (ms : list (packet pgroup)) : outcome (option (pgstore * nat * list (packet pgroup))) :=
  match ms with
  | [] => Ok None
  | (l, complete) :: ms =>
      let? acc := foldM (gd_take s) acc l in
      if (complete : bool) then Ok (Some (acc, ms)) else gd_receive s acc ms
  end.

(** The test of computeNTotal, GroupStorage.tpp:310-318, and of GroupCollector, GroupCollector.tpp:139-144: atom 0 is a local atom. *)
Definition first_local (g : pgroup) : bool := match gpPtrs g with Some _ :: _ => true | _ => false end.
(** The loop of isValid, GroupStorage.tpp:407-443, without ghosts, for one group: the number of its local atoms. *)
Fixpoint valid_ptrs (s : pstore) (l : list (Z * option Z)) : outcome nat :=
  match l with
  | [] => Ok 0
  | (i, p) :: l =>
      let? _ := check (bool_decide (0 <= i < Z.of_nat (psTotal s))%Z) in
      let? _ := match p with
                | Some j => check (bool_decide (j = i /\ i ∈ local_ids s))
                | None => check (negb (bool_decide (i ∈ local_ids s)))
                end in
      let? n := valid_ptrs s l in Ok ((if p then 1 else 0) + n)
  end.
(** isValid, GroupStorage.tpp:384-471, on one processor: the number nAtomGroup. *)
Definition pg_valid (s : pstore) (st : pgstore) : outcome nat :=
  foldM (fun n g => let? k := valid_ptrs s (zip (gpAtoms g) (gpPtrs g)) in let? _ := check (negb (bool_decide (k = 0))) in Ok (n + k)) 0 (pgGroups st).

(** The whole distribution, on processors with the AtomStorages [ls] and the GroupStorages [ss], the master's first: receive on all other processors,
    and the rest of send (GroupDistributor.tpp:236-256): validate (333-346), computeNTotal, isValid.  [None]: a processor waits forever or messages are left. *)
Definition gdistribute (N : nat) (b : buffer) (ls : list pstore) (d : gdist) (ss : list pgstore) (groups : list pgroup) : outcome (option (gdist * list pgstore)) :=
  match ls, ss with
  | l0 :: ls', s0 :: ss' =>
      let? d := gd_master N b l0 d s0 groups in
      let? rs := foldM (fun acc x => let? r := gd_receive x.1 (x.2, 0) (gdOut d) in Ok (acc ++ [r])) [] (zip ls' ss') in
      if forallb (fun r => match r with Some (_, []) => true | _ => false end) rs then
        let res := omap (fun r => fst <$> r) rs in
        let ss := gdStore d :: map fst res in
        let recv := gdRecv d + sum_list (map snd res) in
        let? _ := check (bool_decide (recv = gdSent d * N)) in
        let nTotal := sum_list (map (fun s => length (List.filter first_local (pgGroups s))) ss) in
        let? _ := check (bool_decide (nTotal = gdSent d)) in
        let? ns := foldM (fun acc x => let? n := pg_valid x.1 x.2 in Ok (acc + n)) 0 (zip ls ss) in
        let? _ := check (bool_decide (ns = N * nTotal)) in
        Ok (Some (GD (gdCap d) 0 0 0 [] (gdOut d) (gdStore d), ss))
      else Ok None
  | _, _ => UB
  end.
