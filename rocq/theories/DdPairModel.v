(** Model of the nonbonded forces, energies and stresses of the parallel program: PairPotentialImpl (src/ddMd/potentials/pair/PairPotentialImpl.h) with the pair list
    (methodId 0), AtomStorage::zeroForces and Simulation::computeForces.  Coordinates are Cartesian and real numbers.  MPI Reduce adds up what the processors have. *)
From Verif Require Import Base Containers Vec3 BoxSpec PlanModel DomainModel SpeciesModel ExchModel NbrModel.
From Coq Require Import Reals.
Local Open Scope nat_scope.

(** -= of Vector, as addition of this.  Util::Vector (util, documented). *)
Definition neg3 (f : vec3 R) : vec3 R := V3 (- vx f)%R (- vy f)%R (- vz f)%R.
(** k times getPair and ++, PairPotentialImpl.h:589-598: the pairs seen. *)
Fixpoint dit_take (k : nat) (i : dpiter) : outcome (list (nat * nat) * dpiter) :=
  match k with
  | 0 => Ok ([], i)
  | S k => let? xy := dit_pair i in let? i := dit_next i in let? r := dit_take k i in Ok (xy :: r.1, r.2)
  end.
(** The loops over all pairs, e.g. PairPotentialImpl.h:561-562; more steps than nPair are not needed. *)
Definition all_pairs (p : dplist) : outcome (list (nat * nat)) :=
  let? r := dit_loop (S (length (vA2 p))) (dpl_begin p dit_new) in
  match r with Some x => Ok x.1 | None => UB end.

(** PairPotential::buildCellList, PairPotential.cpp:193-254, with cutoffs[i] = cutoff/length(i) and the bounds of the domain (217-225), then AtomStorage::transformGenToCart
    ([C]) and buildPairList, 259-286, as in Integrator.cpp:124-128 and TwoStepIntegrator.cpp:151-169, on one processor; [old] are its previous lists.  [mk] says which
    ids mask each other. *)
Definition build_on (cap capA : nat) (rev : bool) (rc : R) (n : Z) (C : vec3 R -> vec3 R) (L : vec3 R) (mk : Z -> Z -> bool) (old : dclist * dplist) (q : xproc) : outcome dplist :=
  let D := xpDom q in
  let? s := buildCellList cap (V3 (domainBound D 0 0) (domainBound D 1 0) (domainBound D 2 0)) (V3 (domainBound D 0 1) (domainBound D 1 1) (domainBound D 2 1))
              (V3 (rc / vx L) (rc / vy L) (rc / vz L))%R n (xpLocals q) (xpGhosts q) (fun h => xPos (xpMem q h)) old.1 in
  buildPairList capA s rev rc (fun h => C (xPos (xpMem q h))) (fun x y => mk (xId (xpMem q x)) (xId (xpMem q y))) old.2.

(** AtomStorage::transformGenToCart, AtomStorage.cpp:482-503, on all processors; atoms that are not used are converted as well. *)
Definition to_cart (C : vec3 R -> vec3 R) (sys : list xproc) : list xproc :=
  map (fun p => with_mem p (fun h => let a := xpMem p h in XA (xId a) (xType a) (C (xPos a)) (xPlan a) (xForce a) (xRest a))) sys.

Section pair.
  (** cutoffSq, forceOverR and energy of the Interaction; [isGhost] of an atom. *)
  Variables (cut2 : Z -> Z -> R) (fo u : R -> Z -> Z -> R).

  (** f.subtract(atom0Ptr->position(), atom1Ptr->position()), PairPotentialImpl.h:563. *)
  Definition p_dr (m : nat -> xatom) (xy : nat * nat) : vec3 R := vsub (xPos (m xy.1)) (xPos (m xy.2)).
  (** rsq, PairPotentialImpl.h:564. *)
  Definition p_rsq (m : nat -> xatom) (xy : nat * nat) : R := normSq (p_dr m xy).
  (** rsq < cutoffSq(type0, type1), PairPotentialImpl.h:567. *)
  Definition p_in (m : nat -> xatom) (xy : nat * nat) : bool := if Rlt_dec (p_rsq m xy) (cut2 (xType (m xy.1)) (xType (m xy.2))) then true else false.
  (** f *= forceOverR(rsq, type0, type1), PairPotentialImpl.h:568. *)
  Definition p_force (m : nat -> xatom) (xy : nat * nat) : vec3 R := vscale (fo (p_rsq m xy) (xType (m xy.1)) (xType (m xy.2))) (p_dr m xy).
  (** energy(rsq, type0, type1), e.g. PairPotentialImpl.h:526. *)
  Definition p_energy (m : nat -> xatom) (xy : nat * nat) : R := u (p_rsq m xy) (xType (m xy.1)) (xType (m xy.2)).

  (** Loop body with reverse communication, PairPotentialImpl.h:561-572. *)
  Definition force_rev (m : nat -> xatom) (xy : nat * nat) : nat -> xatom :=
    if p_in m xy then let f := p_force m xy in add_force (add_force m (xy.1, f)) (xy.2, neg3 f) else m.
  (** Loop body of the last loop of a block, PairPotentialImpl.h:617-630, with the separation and the force found before. *)
  Definition force_blk (ghosts : list nat) (m : nat -> xatom) (c : (nat * nat) * vec3 R) : nat -> xatom :=
    let m := add_force m (c.1.1, c.2) in
    if bool_decide (c.1.2 ∈ ghosts) then m else add_force m (c.1.2, neg3 c.2).
  (** A block of pairs, PairPotentialImpl.h:588-630. *)
  Definition force_block (ghosts : list nat) (m : nat -> xatom) (l : list (nat * nat)) : nat -> xatom :=
    fold_left (force_blk ghosts) (map (fun xy => (xy, p_force m xy)) (List.filter (p_in m) l)) m.
  (** The loop over blocks of PAIR_BLOCK_SIZE = 16 pairs, PairPotentialImpl.h:18, 581-634; [j] pairs are left. *)
  Fixpoint force_blocks (ghosts : list nat) (fuel j : nat) (i : dpiter) (m : nat -> xatom) : outcome (nat -> xatom) :=
    match fuel with
    | 0 => Ok m
    | S fuel => if decide (j = 0) then Ok m else
                let n := Nat.min 16 j in
                let? r := dit_take n i in force_blocks ghosts fuel (j - n) r.2 (force_block ghosts m r.1)
    end.
  (** computeForcesList, PairPotentialImpl.h:550-664. *)
  Definition computeForcesList (rev : bool) (p : dplist) (q : xproc) : outcome xproc :=
    if rev then let? l := all_pairs p in Ok (with_mem q (fold_left force_rev l (xpMem q)))
    else let? m := force_blocks (xpGhosts q) (length (vA2 p)) (length (vA2 p)) (dpl_begin p dit_new) (xpMem q) in Ok (with_mem q m).

  (** energyList, PairPotentialImpl.h:509-543. *)
  Definition energyList (rev : bool) (p : dplist) (q : xproc) : outcome R :=
    let? l := all_pairs p in
    Ok (fold_left (fun e xy => if rev then e + p_energy (xpMem q) xy
                               else if bool_decide (xy.2 ∈ xpGhosts q) then e + (1/2) * p_energy (xpMem q) xy else e + p_energy (xpMem q) xy)%R l 0%R).
  (** Element (i, j) of localStress before the division by the volume, computeStress, PairPotentialImpl.h:956-1010; incrementPairStress, Potential.h:235-244, adds f_i dr_j. *)
  Definition stressList (i j : nat) (rev : bool) (p : dplist) (q : xproc) : outcome R :=
    let? l := all_pairs p in
    Ok (fold_left (fun e xy => if p_in (xpMem q) xy then
                                 let w := if rev then 1%R else if bool_decide (xy.2 ∈ xpGhosts q) then (1/2)%R else 1%R in
                                 e + vget (vscale (w * fo (p_rsq (xpMem q) xy) (xType (xpMem q xy.1)) (xType (xpMem q xy.2))) (p_dr (xpMem q) xy)) i * vget (p_dr (xpMem q) xy) j
                               else e)%R l 0%R).
  (** nPairList, PairPotential.cpp:346-380: each pair within the cutoff counts 2, or 1 if the other processor counts it as well. *)
  Definition nPairList (cutoffSq : R) (rev : bool) (p : dplist) (q : xproc) : outcome Z :=
    let? l := all_pairs p in
    Ok (fold_left (fun e xy => if Rlt_dec (p_rsq (xpMem q) xy) cutoffSq then
                                 if rev then e + 2 else if bool_decide (xy.2 ∈ xpGhosts q) then e + 1 else e + 2
                               else e)%Z l 0%Z).
  (** Sum over all processors: MPI Reduce, Potential.cpp:118-136, 141-158, PairPotential.cpp:329-331. *)
  Definition reduce {A} (plus : A -> A -> A) (zero : A) (f : dplist -> xproc -> outcome A) (lists : list dplist) (sys : list xproc) : outcome A :=
    let? l := mapO (fun c => f c.1 c.2) (zip lists sys) in Ok (fold_right plus zero l).

  (** AtomStorage::zeroForces, AtomStorage.cpp:150-180; the version that runs through the array also writes to atoms that are not used. *)
  Definition zero_forces (rev : bool) (q : xproc) : xproc :=
    with_mem q (fun h => let a := xpMem q h in
      if decide (h ∈ xpLocals q \/ (rev = true /\ h ∈ xpGhosts q)) then XA (xId a) (xType a) (xPos a) (xPlan a) (V3 0 0 0)%R (xRest a) else a).
  (** Simulation::computeForces, Simulation.cpp:1551-1580, or Integrator::computeForces, Integrator.cpp:140-190, on all processors, with a pair potential only. *)
  Definition computePairForces (rev : bool) (lists : list dplist) (sys : list xproc) : outcome (list xproc) :=
    let? sys := mapO (fun c => computeForcesList rev c.1 (zero_forces rev c.2)) (zip lists sys) in
    if rev then reverseUpdate sys else Ok sys.
End pair.
