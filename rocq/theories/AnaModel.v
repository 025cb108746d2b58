(** Models of analyzers of src/mcMd/analyzers/system that follow molecules across faces of the box: RadiusGyrationSq,
    BlockRadiusGyration, LinearRouseAutoCorr, RingRouseAutoCorr, AtomMSD and ComMSD, over real numbers.  A molecule is the list of ids of its
    atoms; results of a division by zero are [None].  Accumulators (util) are not modelled, only what is passed to them. *)
From Verif Require Import Base Vec3 BoxSpec OrthoModel SpeciesModel.
From Coq Require Import Reals.
Local Open Scope R_scope.

Section Walk.
  (** The separation dr returned by boundary.distanceSq(r1, r2, dr); the positions of the atoms. *)
  Variables (sepn : vec3 R -> vec3 R -> vec3 R) (pos : nat -> vec3 R).

  (** The loops over the atoms after the first, with [step] applied to the positions of an atom and of the next one; each atom
      comes with its entry of positions_ (or value of atomPos): RadiusGyrationSq.cpp:92-99, BlockRadiusGyration.cpp:215-223,
      LinearRouseAutoCorr.cpp:195-202, RingRouseAutoCorr.cpp:188-195, ComMSD.cpp:234-240. *)
  Fixpoint walk (step : vec3 R -> vec3 R -> vec3 R) (cur : vec3 R) (a : nat) (rest : list nat) : list (nat * vec3 R) :=
    match rest with
    | [] => []
    | b :: rest => let p := vadd cur (step (pos a) (pos b)) in (b, p) :: walk step p b rest
    end.
  (** The whole molecule, starting from the position of its first atom, RadiusGyrationSq.cpp:90-99, LinearRouseAutoCorr.cpp:192-202; a molecule without atoms is UB. *)
  Definition unwrapped (step : vec3 R -> vec3 R -> vec3 R) (mol : list nat) : outcome (list (nat * vec3 R)) :=
    match mol with [] => UB | a :: rest => Ok ((a, pos a) :: walk step (pos a) a rest) end.
  (** positions_ of RadiusGyrationSq.cpp:90-99 and BlockRadiusGyration.cpp:212-223: distanceSq(r1, r2, dR) with r1 the earlier atom. *)
  Definition back_walk : list nat -> outcome (list (nat * vec3 R)) := unwrapped sepn.
  (** atomPos of LinearRouseAutoCorr.cpp:192-202: distanceSq(r2, r1, dR). *)
  Definition fore_walk : list nat -> outcome (list (nat * vec3 R)) := unwrapped (fun r1 r2 => sepn r2 r1).

  (** The sum of the entries of the atoms with [sel], Rcm in RadiusGyrationSq.cpp:91-98 and rCom_[typeId] in
      BlockRadiusGyration.cpp:207-223. *)
  Definition sum_sel (sel : nat -> bool) (ps : list (nat * vec3 R)) : vec3 R :=
    fold_left (fun s p => if sel (fst p) then vadd s (snd p) else s) ps (V3 0 0 0).
  (** The sum of squared distances from a point, RadiusGyrationSq.cpp:103-106 and BlockRadiusGyration.cpp:235-239. *)
  Definition add_sq (sel : nat -> bool) (o : vec3 R) (d : R) (ps : list (nat * vec3 R)) : R :=
    fold_left (fun d p => if sel (fst p) then d + normSq (vsub (snd p) o) else d) ps d.

  (** RadiusGyrationSq::compute, RadiusGyrationSq.cpp:77-111; [n] is nAtom_. *)
  Definition rg_compute (n : nat) (mols : list (list nat)) : outcome (option R) :=
    let? d := foldM (fun d mol =>
        let? ps := back_walk mol in
        let rcm := vscale (/ INR n) (sum_sel (fun _ => true) ps) in
        Ok (add_sq (fun _ => true) rcm d ps)) 0 mols in
    match length mols with
    | O => Ok None
    | m => Ok (Some (d / INR m / INR n))
    end.

  (** iTypeNAtom_ of BlockRadiusGyration.cpp:196-201: counted in molecule 0 of the species. *)
  Definition blk_count (ty : nat -> nat) (mols : list (list nat)) (i : nat) : nat :=
    match mols with [] => O | mol :: _ => length (List.filter (fun a => Nat.eqb (ty a) i) mol) end.
  (** dRSq_[i] of BlockRadiusGyration::sample, BlockRadiusGyration.cpp:203-246. *)
  Definition blk_own (ty : nat -> nat) (mols : list (list nat)) (i : nat) : outcome (option R) :=
    let n := blk_count ty mols i in
    let? d := foldM (fun d mol =>
        let? ps := back_walk mol in
        let rcom := vscale (/ INR n) (sum_sel (fun a => Nat.eqb (ty a) i) ps) in
        Ok (add_sq (fun a => Nat.eqb (ty a) i) rcom d ps)) 0 mols in
    match n, length mols with
    | O, _ | _, O => Ok None
    | n, m => Ok (Some (d / INR m / INR n))
    end.
  (** dRSqPair_ of the types l and m, BlockRadiusGyration.cpp:203-251; the index k of the pair is not modelled. *)
  Definition blk_pair (ty : nat -> nat) (mols : list (list nat)) (l m : nat) : outcome (option R) :=
    let nl := blk_count ty mols l in
    let nm := blk_count ty mols m in
    let? d := foldM (fun d mol =>
        let? ps := back_walk mol in
        let cl := vscale (/ INR nl) (sum_sel (fun a => Nat.eqb (ty a) l) ps) in
        let cm := vscale (/ INR nm) (sum_sel (fun a => Nat.eqb (ty a) m) ps) in
        Ok (d + normSq (vsub cl cm))) 0 mols in
    match nl, nm, length mols with
    | O, _, _ | _, O, _ | _, _, O => Ok None
    | _, _, k => Ok (Some (d / INR k))
    end.

  (** projector_ of LinearRouseAutoCorr::setup, LinearRouseAutoCorr.cpp:153-164; [n] is nAtom_. *)
  Definition linear_projector (n p j : nat) : R :=
    let qMode := PI * INR p / INR (n - 1) in
    let x := match p with O => 1 / INR n | _ => 1 / INR n * cos (qMode * INR j) end in
    let x := if decide (j = 0)%nat then x - 1/2 / INR n else x in
    if decide (j = n - 1)%nat then x - 1/2 / INR n else x.
  (** projector_ of RingRouseAutoCorr::setup, RingRouseAutoCorr.cpp:143-158. *)
  Definition ring_projector (n p j : nat) : R :=
    match p with
    | O => 1 / INR n
    | _ => if Nat.even p then 1 / INR n * cos (2 * PI * INR (p / 2) / INR n * INR j)
           else 1 / INR n * sin (2 * PI * INR ((p + 1) / 2) / INR n * INR j)
    end.
  (** data_[i] of LinearRouseAutoCorr.cpp:190-203 and RingRouseAutoCorr.cpp:182-196. *)
  Definition rouse_data (proj : nat -> R) (mol : list nat) : outcome (vec3 R) :=
    let? ps := fore_walk mol in
    Ok (fst (fold_left (fun s p => (vadd (fst s) (vscale (proj (snd s)) (snd p)), Datatypes.S (snd s))) ps (V3 0 0 0, 0%nat))).

  (** ComMSD::moleculeCom, ComMSD.cpp:229-244; [n] is nAtom_, and the loop runs over the atoms 1 to n-2. *)
  Definition moleculeCom (n : nat) (mol : list nat) (r0 : vec3 R) : outcome (vec3 R) :=
    match mol with
    | [] => UB
    | a :: rest =>
        let ps := walk (fun r1 r2 => sepn r2 r1) r0 a (take (n - 2) rest) in
        Ok (vscale (/ INR n) (fold_left (fun s p => vadd s (snd p)) ps r0))
    end.
End Walk.

(** oldPositions_, shifts_ and truePositions_ of one molecule, AtomMSD.h:90-97 and ComMSD.h:95-102. *)
Record track := Track { kOld : vec3 R; kShift : vec3 Z; kTrue : vec3 R }.

Section Msd.
  Variable (b : ortho).
  (** The loops in AtomMSD::setup, AtomMSD.cpp:153-158, and ComMSD::setup, ComMSD.cpp:144-149; truePositions_ is not set. *)
  Definition msd_setup (r : vec3 R) : track := Track (shift1 b r) (V3 0 0 0)%Z (V3 0 0 0).
  (** r + shifts_ times lengths, AtomMSD.cpp:192-195 and ComMSD.cpp:190-192. *)
  Definition add_shift (r : vec3 R) (s : vec3 Z) : vec3 R :=
    V3 (vx r + IZR (vx s) * vx (oLen b)) (vy r + IZR (vy s) * vy (oLen b)) (vz r + IZR (vz s) * vz (oLen b)).
  (** The change of shifts_, AtomMSD.cpp:186-189 and ComMSD.cpp:178-181. *)
  Definition next_shift (t : track) (r : vec3 R) : vec3 Z :=
    let s := snd (distanceSq_shift b r (kOld t)) in V3 (vx (kShift t) + vx s)%Z (vy (kShift t) + vy s)%Z (vz (kShift t) + vz s)%Z.
  (** The body of the loop in AtomMSD::sample, AtomMSD.cpp:182-198. *)
  Definition atom_sample (t : track) (r : vec3 R) : track :=
    let r := shift1 b r in
    let s := next_shift t r in
    Track r s (add_shift r s).
  (** The body of the loop in ComMSD::sample, ComMSD.cpp:174-194. *)
  Definition com_sample (n : nat) (pos : nat -> vec3 R) (mol : list nat) (t : track) : outcome track :=
    match mol with
    | [] => UB
    | a :: _ =>
        let r := shift1 b (pos a) in
        let s := next_shift t r in
        let? c := moleculeCom (fun r1 r2 => snd (distanceSq_dr b r1 r2)) pos n mol r in
        Ok (Track r s (add_shift c s))
    end.
End Msd.
