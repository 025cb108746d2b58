(** Model of Cluster::clusterCOM and Cluster::momentTensor (src/mcMd/analyzers/system/Cluster.cpp), over real numbers.  Links, molecules
    and atoms are ids, as in ClusterModel.  A result divided by zero atoms (not a number in C++) is [None]. *)
From Verif Require Import Base Vec3 BoxSpec ClusterModel.
From Coq Require Import Reals.
Local Open Scope R_scope.

Section Com.
  (** The separation returned by boundary.distanceSq(r1, r2, dr); boundary.shift; the atoms of a molecule; typeId() == atomTypeInCluster. *)
  Variables (sepn : vec3 R -> vec3 R -> vec3 R) (wrap : vec3 R -> vec3 R) (atomsOf : nat -> list nat) (ofType : nat -> bool).

  (** The loops over the molecules of a cluster, Cluster.cpp:91-103 and 124-135, with [body] applied to each atom of the type; a loop that
      does not end, and a null molecule, are UB. *)
  Fixpoint over_atoms {S} (body : S -> nat -> S) (fuel : nat) (ptr : option nat) (links : list clink) (s : S) : outcome S :=
    match fuel with
    | O => UB
    | Datatypes.S f =>
        match ptr with
        | None => Ok s
        | Some i =>
            let? l := aget links i in
            match lMol l with
            | None => UB
            | Some m => over_atoms body f (lNext l) links (fold_left (fun s a => if ofType a then body s a else s) (atomsOf m) s)
            end
        end
    end.
  (** Cluster.cpp:87: the position of the first atom of the molecule of the head of the list; both must exist. *)
  Definition com_origin (pos : nat -> vec3 R) (c : cluster) (links : list clink) : outcome (vec3 R) :=
    match cHead c with
    | None => UB
    | Some i => let? l := aget links i in
                match lMol l with
                | None => UB
                | Some m => match atomsOf m with [] => UB | a :: _ => Ok (pos a) end
                end
    end.
  (** Cluster::clusterCOM, Cluster.cpp:77-108. *)
  Definition clusterCOM (fuel : nat) (pos : nat -> vec3 R) (c : cluster) (links : list clink) : outcome (option (vec3 R)) :=
    let? r0 := com_origin pos c links in
    let? (com, n) := over_atoms (fun s a => (vadd (fst s) (sepn (pos a) r0), (snd s + 1)%Z)) fuel (cHead c) links (V3 0 0 0, 0%Z) in
    if decide (n = 0)%Z then Ok None else
    let com := vscale (/ IZR n) com in
    let com := vadd com r0 in
    Ok (Some (wrap com)).
  (** Tensor::dyad and += (util, documented), used in Cluster.cpp:132. *)
  Definition dyad (u v : vec3 R) : vec3 (vec3 R) := V3 (vscale (vx u) v) (vscale (vy u) v) (vscale (vz u) v).
  (** Tensor::operator +=, used in Cluster.cpp:132. *)
  Definition tadd (a b : vec3 (vec3 R)) : vec3 (vec3 R) := V3 (vadd (vx a) (vx b)) (vadd (vy a) (vy b)) (vadd (vz a) (vz b)).
  (** Tensor::operator /=, used in Cluster.cpp:136, as a product with the inverse. *)
  Definition tscale (x : R) (a : vec3 (vec3 R)) : vec3 (vec3 R) := V3 (vscale x (vx a)) (vscale x (vy a)) (vscale x (vz a)).
  (** Cluster::momentTensor, Cluster.cpp:111-138. *)
  Definition momentTensor (fuel : nat) (pos : nat -> vec3 R) (c : cluster) (links : list clink) : outcome (option (vec3 (vec3 R))) :=
    let? com := clusterCOM fuel pos c links in
    match com with
    | None => Ok None
    | Some com =>
        let z := V3 0 0 0 in
        let? (t, n) := over_atoms (fun s a => let dr := sepn (pos a) com in (tadd (fst s) (dyad dr dr), (snd s + 1)%Z)) fuel (cHead c) links (V3 z z z, 0%Z) in
        if decide (n = 0)%Z then Ok None else Ok (Some (tscale (/ IZR n) t))
    end.
End Com.
