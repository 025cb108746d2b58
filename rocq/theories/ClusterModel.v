(** Model of ClusterIdentifier, Cluster and ClusterLink (src/mcMd/analyzers/system), over real numbers.  Molecules and atoms are their
    ids; pointers to elements of links_ are their indices.  GArray::resize (util, documented) value-initializes added elements. *)
From Verif Require Import Base Vec3 McCellModel DomainModel SpeciesModel CellListModel PairListModel EnergyModel.
From Coq Require Import Reals.
Local Open Scope R_scope.

(** ClusterLink.h:54-61: moleculePtr_, next_ and clusterId_. *)
Record clink := CLk { lMol : option nat; lNext : option nat; lCl : Z }.
(** Cluster.h:100-107: id_, size_ and head_. *)
Record cluster := Clu { cId : Z; cSize : Z; cHead : option nat }.
(** ClusterLink::clear, ClusterLink.h:67-74. *)
Definition link_clear : clink := CLk None None (-1).
(** ClusterLink::setMolecule, ClusterLink.h:76-79. *)
Definition link_set (l : clink) (m : nat) : clink := CLk (Some m) (lNext l) (lCl l).
(** Cluster::Cluster, Cluster.cpp:16-20. *)
Definition clu_new : cluster := Clu (-1) 0 None.

(** The loop of Cluster::clear, Cluster.cpp:27-33; a loop that does not end is UB. *)
Fixpoint clear_loop (fuel : nat) (ptr : option nat) (links : list clink) : outcome (list clink) :=
  match fuel with
  | O => UB
  | S f => match ptr with
           | None => Ok links
           | Some i => let? l := aget links i in let? links := aset links i link_clear in clear_loop f (lNext l) links
           end
  end.
(** Cluster::clear, Cluster.cpp:25-37. *)
Definition clu_clear (fuel : nat) (c : cluster) (links : list clink) : outcome (cluster * list clink) :=
  let? links := clear_loop fuel (cHead c) links in Ok (clu_new, links).
(** The loop of Cluster::setId, Cluster.cpp:45-49. *)
Fixpoint setid_loop (fuel : nat) (ptr : option nat) (id : Z) (links : list clink) : outcome (list clink) :=
  match fuel with
  | O => UB
  | S f => match ptr with
           | None => Ok links
           | Some i => let? l := aget links i in let? links := aset links i (CLk (lMol l) (lNext l) id) in setid_loop f (lNext l) id links
           end
  end.
(** Cluster::setId, Cluster.cpp:39-50. *)
Definition clu_setId (fuel : nat) (c : cluster) (id : Z) (links : list clink) : outcome (cluster * list clink) :=
  let? _ := check (bool_decide (0 <= id)%Z) in
  let? links := setid_loop fuel (cHead c) id links in Ok (Clu id (cSize c) (cHead c), links).
(** Cluster::addLink, Cluster.cpp:52-58. *)
Definition clu_addLink (c : cluster) (i : nat) (links : list clink) : outcome (cluster * list clink) :=
  let? l := aget links i in
  let? links := aset links i (CLk (lMol l) (cHead c) (cId c)) in
  Ok (Clu (cId c) (cSize c + 1) (Some i), links).
(** The loop of Cluster::isValid, Cluster.cpp:62-70; None if a link has another id. *)
Fixpoint valid_loop (fuel : nat) (ptr : option nat) (id : Z) (links : list clink) (n : Z) : outcome (option Z) :=
  match fuel with
  | O => UB
  | S f => match ptr with
           | None => Ok (Some n)
           | Some i => let? l := aget links i in if decide (lCl l = id) then valid_loop f (lNext l) id links (n + 1)%Z else Ok None
           end
  end.
(** Cluster::isValid, Cluster.cpp:60-75. *)
Definition clu_isValid (fuel : nat) (links : list clink) (c : cluster) : outcome bool :=
  let? o := valid_loop fuel (cHead c) (cId c) links 0 in
  Ok (match o with Some n => bool_decide (n = cSize c) | None => false end).

(** ClusterIdentifier.h:97-109: links_, clusters_, workStack_ and cellList_. *)
Record ident := CI { iLinks : list clink; iClusters : list cluster; iStack : list nat; iCells : clist }.

Section Identify.
  (** Cell::MaxAtomCell; transformCartToGen, distanceSq, shift and lengths of the boundary; cutoff_. *)
  Variables (M : nat) (toGen : vec3 R -> vec3 R) (dist2 : vec3 R -> vec3 R -> R) (wrap : vec3 R -> vec3 R) (lens : vec3 R) (cutoff : R).
  (** The molecules of species speciesId_ in the order of System::begin; their atoms; whether typeId() is atomTypeId_;
      Atom::molecule().id(). *)
  Variables (mols : list nat) (atomsOf : nat -> list nat) (core : nat -> bool) (molOf : nat -> nat).

  (** The loop over neighbors, ClusterIdentifier.cpp:100-120; the state is links_, the cluster and workStack_. *)
  Definition visit (pos : nat -> vec3 R) (this i : nat) (s : list clink * cluster * list nat) (j : nat) : outcome (list clink * cluster * list nat) :=
    let '(links, c, st) := s in
    if decide (molOf j = this) then Ok s else
    if Rlt_dec (dist2 (pos i) (pos j)) (cutoff * cutoff) then
      let? l := aget links (molOf j) in
      if decide (lCl l = -1)%Z then
        let? (c, links) := clu_addLink c (molOf j) links in Ok (links, c, molOf j :: st)
      else if decide (lCl l = cId c) then Ok s else Throw
    else Ok s.
  (** processNextMolecule, ClusterIdentifier.cpp:72-124.  GStack::pop throws when the stack is empty. *)
  Definition process (pos : nat -> vec3 R) (cells : clist) (s : list clink * cluster * list nat) : outcome (list clink * cluster * list nat) :=
    let '(links, c, st) := s in
    match st with
    | [] => Throw
    | t :: st =>
        let? l := aget links t in
        match lMol l with
        | None => UB
        | Some this =>
            let? _ := check (bool_decide (lCl l = cId c)) in
            foldM (fun s i => if core i then let? nb := get_neighbors M toGen cells (pos i) in foldM (visit pos this i) s nb else Ok s)
              (links, c, st) (atomsOf this)
        end
    end.
  (** while (workStack_.size() > 0), ClusterIdentifier.cpp:184-186; a loop that does not end is UB. *)
  Fixpoint work (fuel : nat) (pos : nat -> vec3 R) (cells : clist) (s : list clink * cluster * list nat) : outcome (list clink * cluster) :=
    match fuel with
    | O => UB
    | S f => let '(links, c, st) := s in
             match st with [] => Ok (links, c) | _ => let? s := process pos cells s in work f pos cells s end
    end.

  (** The loop that fills links_ and cellList_, ClusterIdentifier.cpp:145-159; s holds the positions and the cell list. *)
  Definition enter_mol (x : list clink * mcs) (m : nat) : outcome (list clink * mcs) :=
    let (links, s) := x in
    let? l := aget links m in
    let? links := aset links m (link_set l m) in
    let? s := foldM (fun s a => if core a then mc_enter M toGen wrap s a else Ok s) s (atomsOf m) in
    Ok (links, s).
  (** The body of the loop over molecules, ClusterIdentifier.cpp:168-189; clusterId is the number of clusters so far. *)
  Definition grow (pos : nat -> vec3 R) (cells : clist) (x : list clink * list cluster * list nat) (m : nat) : outcome (list clink * list cluster * list nat) :=
    let '(links, cs, st) := x in
    let? l := aget links m in
    if decide (lCl l = -1)%Z then
      let fuel := S (length links) in
      let? (c, links) := clu_clear fuel clu_new links in
      let? (c, links) := clu_setId fuel c (Z.of_nat (length cs)) links in
      let? (c, links) := clu_addLink c m links in
      let? (links, c) := work fuel pos cells (links, c, m :: st) in
      Ok (links, cs ++ [c], [])
    else Ok x.
  (** ClusterIdentifier::isValid, ClusterIdentifier.cpp:197-229. *)
  Definition ci_isValid (links : list clink) (cs : list cluster) : outcome () :=
    let? n := foldM (fun n c => let? v := clu_isValid (S (length links)) links c in let? _ := check v in Ok (n + cSize c)%Z) 0%Z cs in
    let? _ := check (bool_decide (n = Z.of_nat (length mols))) in
    forM mols (fun m =>
      let? l := aget links m in
      let? _ := check (bool_decide (lMol l = Some m)) in
      check (bool_decide (lCl l <> -1)%Z)).
  (** identifyClusters, ClusterIdentifier.cpp:129-195. *)
  Definition identify (s : ident) (pos : nat -> vec3 R) : outcome (ident * (nat -> vec3 R)) :=
    let? cells := cl_setup M lens cutoff (iCells s) in
    let links := map (fun _ => link_clear) (iLinks s) in
    let? (links, t) := foldM enter_mol (links, MC pos (fun _ => 0%Z) cells) mols in
    let? (links, cs, st) := foldM (grow (sPos t) (sCells t)) (links, [], iStack s) mols in
    let? _ := ci_isValid links cs in
    Ok (CI links cs st (sCells t), sPos t).
End Identify.
(** initialize, ClusterIdentifier.cpp:48-67: [nMol] is the capacity of the species, [cap] atomCapacity of the simulation. *)
Definition ident_new (nMol cap : nat) : ident := CI (replicate nMol link_clear) [] [] (cl_new cap).
