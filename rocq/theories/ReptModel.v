(** Model of the reptation move with configuration bias: CfbLinear (src/mcMd/mcMoves/linear/CfbLinear.cpp) and CfbReptateMove
    (src/mcMd/mcMoves/linear/CfbReptateMove.cpp), over real numbers.  The random choices are arguments.  The program is compiled with pair, angle and external
    potentials.  Left out: counters, autocorrelations, archives, and the energies energy_r and energy_f, which the move does not use.  Pointer arithmetic
    tailPtr + k*sign is the k-th atom of the chain read from its tail to its head. *)
From Verif Require Import Base Vec3 BoxSpec McCellModel DomainModel SpeciesModel CellListModel PairListModel EnergyModel MoveModel.
From Coq Require Import Reals.
Local Open Scope R_scope.

(** Mask::isMasked, src/mcMd/chemistry/Mask.h; the atoms in the mask of each atom. *)
Definition mask_of (mk : nat -> list nat) (a b : nat) : bool := bool_decide (b ∈ mk a).
(** mask().clear(), and mask().append([b]) if maskPolicy_ is MaskBonded, CfbReptateMove.cpp:206-209, 229-233. *)
Definition set_mask (bonded : bool) (mk : nat -> list nat) (a b : nat) : nat -> list nat :=
  fun x => if decide (x = a) then (if bonded then [b] else []) else mk x.
(** Atom::setTypeId, src/mcMd/chemistry/Atom.h. *)
Definition set_type (s : mcs) (a : nat) (t : Z) : mcs := MC (sPos s) (fun x => if decide (x = a) then t else sTy s x) (sCells s).
(** junctions_, lTypes_ and uTypes_, CfbReptateMove.cpp:81-93, for the atom types of a species. *)
Definition junctions (tys : list Z) : list (nat * Z * Z) :=
  flat_map (fun i => match tys !! i, tys !! S i with
    | Some l, Some u => if decide (l = u) then [] else [(i, l, u)]
    | _, _ => [] end) (seq 0 (length tys - 1)).

Section Rept.
  (** As in EnergyModel and MoveModel; [sep] p q is the vector dr set by boundary().distanceSq(p, q, dr). *)
  Variables (M : nat) (toGen : vec3 R -> vec3 R) (dist2 : vec3 R -> vec3 R -> R) (wrap : vec3 R -> vec3 R) (sep : vec3 R -> vec3 R -> vec3 R).
  Variables (u : R -> Z -> Z -> R).
  (** anglePotential().energy(cosTheta, type) if hasAngles_, and the external interaction, if any. *)
  Variables (ang : option (R -> Z -> R)) (ext : option (vec3 R -> Z -> R)).
  (** energyEnsemble().beta(), and simulation().maskedPairPolicy() == MaskBonded. *)
  Variables (beta : R) (bonded : bool).

  (** u2, CfbLinear.cpp:161-172, 283-292: the unit vector from atom 1 of the end to atom 2, and the type used for the angle. *)
  Definition rp_u2 (s : mcs) (p p2 : nat) (t : Z) : vec3 R * Z :=
    (vscale (/ sqrt (dist2 (sPos s p2) (sPos s p))) (sep (sPos s p2) (sPos s p)), t).
  (** Pair, angle and external energy of the end atom, CfbLinear.cpp:146-185, 213-231, 318-338. *)
  Definition rp_energy (s : mcs) (mk : nat -> list nat) (e : nat) (u1 : vec3 R) (u2 : option (vec3 R * Z)) : outcome R :=
    let? x := pair_atom M toGen dist2 (mask_of mk) u s e in
    let y := match ang, u2 with Some v, Some (d, t) => v (vdot u1 d) t | _, _ => 0 end in
    Ok (x + y + ext_atom ext s e).
  (** pos0.subtract(pos1, v1); boundary().shift(pos0), CfbLinear.cpp:205-210, 310-316. *)
  Definition rp_try (s : mcs) (e : nat) (pvt : vec3 R) (len : R) (b : vec3 R) : mcs :=
    MC (move (sPos s) e (wrap (vadd pvt (vscale (-1) (vscale len b))))) (sTy s) (sCells s).

  (** CfbLinear::deleteAtom, CfbLinear.cpp:120-236; [bs] are the nTrial_ - 1 random unit vectors.  The system and rosenbluth. *)
  Definition rp_delete (s : mcs) (mk : nat -> list nat) (e p : nat) (u2 : option (vec3 R * Z)) (bs : list (vec3 R)) : outcome (mcs * R) :=
    let pvt := sPos s p in
    let len := sqrt (dist2 pvt (sPos s e)) in
    let u1 := vscale (/ len) (sep pvt (sPos s e)) in
    let? energy := rp_energy s mk e u1 u2 in
    foldM (fun x b =>
      let s := rp_try x.1 e pvt len b in
      let? t := rp_energy s mk e b u2 in Ok (s, x.2 + boltzmann beta t)) (s, boltzmann beta energy) bs.
  (** CfbLinear::addAtom, CfbLinear.cpp:241-359; [len] is the random bond length, [bs] are the nTrial_ random unit vectors, [k] is the trial chosen by
      drawFrom. *)
  Definition rp_add (s : mcs) (mk : nat -> list nat) (e p : nat) (u2 : option (vec3 R * Z)) (len : R) (bs : list (vec3 R)) (k : nat) : outcome (mcs * R) :=
    let pvt := sPos s p in
    let? x := foldM (fun (x : mcs * list (vec3 R) * R) b =>
      let s := rp_try x.1.1 e pvt len b in
      let? t := rp_energy s mk e b u2 in Ok (s, x.1.2 ++ [sPos s e], x.2 + boltzmann beta t)) (s, [], 0) bs in
    let? q := aget x.1.2 k in
    Ok (MC (move (sPos x.1.1) e q) (sTy x.1.1) (sCells x.1.1), x.2).

  (** CfbReptateMove::junctionFactor, CfbReptateMove.cpp:295-360, for the junctions [js] of the chain with atoms [mol]; [plus]: sign is 1. *)
  Definition junction_factor (s : mcs) (mk : nat -> list nat) (mol : list nat) (plus : bool) (js : list (nat * Z * Z)) : outcome (mcs * R) :=
    let? x := foldM (fun (x : mcs * R) jn =>
      let '(j, l, up) := jn in
      let? h := aget mol (if plus then S j else j) in
      let? oldE := pair_atom M toGen dist2 (mask_of mk) u x.1 h in
      let s' := set_type x.1 h (if plus then l else up) in
      let? newE := pair_atom M toGen dist2 (mask_of mk) u s' h in
      Ok (s', x.2 * boltzmann beta ((newE + ext_atom ext s' h) - (oldE + ext_atom ext x.1 h)))) (s, 1) js in
    let? s := foldM (fun s jn =>
      let '(j, l, up) := jn in
      let? h := aget mol (if plus then S j else j) in Ok (set_type s h (if plus then up else l))) x.1 js in
    Ok (s, x.2).

  (** The accepted branch, CfbReptateMove.cpp:235-262; [c] is the chain from tail to head. *)
  Definition rp_shift (s : mcs) (c : list nat) : outcome mcs :=
    let? tail := aget c 0 in
    let? nb := aget c 1 in
    let? head := aget c (length c - 1) in
    let newPos := sPos s tail in
    let pos := move (sPos s) tail (sPos s nb) in
    let? l := cl_add M toGen (sCells s) tail (pos tail) in
    let? s := foldM (fun s i =>
      let? a := aget c i in
      let? b := aget c (S i) in
      update_cell M toGen (MC (move (sPos s) a (sPos s b)) (sTy s) (sCells s)) a) (MC pos (sTy s) l) (seq 1 (length c - 2)) in
    update_cell M toGen (MC (move (sPos s) head newPos) (sTy s) (sCells s)) head.

  (** CfbReptateMove::move, CfbReptateMove.cpp:167-290, for the molecule with atoms [mol], bond types [bts] and atom types [tys] of its species and the
      direction chosen; [dels] are the unit vectors used by deleteAtom, [draw] is the outcome of randomBondLength for each bond type, [bs] and [k] are
      the unit vectors and the choice of addAtom, [z] is the random number used by metropolis.  The type of an angle is read from a bond
      (CfbLinear.cpp:174, 294).  Result: ratio, the system, the masks, accept. *)
  Definition rp_move (mk : nat -> list nat) (mol : list nat) (bts tys : list Z) (plus : bool) (dels : list (vec3 R)) (draw : Z -> R) (bs : list (vec3 R))
      (k : nat) (z : R) (s : mcs) : outcome (R * mcs * (nat -> list nat) * bool) :=
    let n := length mol in
    let c := if plus then mol else rev mol in
    let? tail := aget c 0 in
    let? nb := aget c 1 in
    let? head := aget c (n - 1) in
    let oldPos := sPos s tail in
    let oldType := sTy s tail in
    let? ud := (if decide (3 <= n)%nat then
        let? a2 := aget c 2 in
        let? t := aget bts (if plus then 0 else n - 3) in Ok (Some (rp_u2 s nb a2 t))
      else Ok None) in
    let? (s1, rosen_r) := rp_delete s mk tail nb ud dels in
    let? l1 := cl_delete (sCells s1) tail in
    let s2 := set_type (MC (sPos s1) (sTy s1) l1) tail (sTy s1 head) in
    let mk2 := set_mask bonded mk tail head in
    let? tb := aget bts (if plus then n - 2 else 0) in
    let? ua := (if decide (3 <= n)%nat then
        let? a2 := aget c (n - 2) in
        let? t := aget bts (if plus then n - 3 else 0) in Ok (Some (rp_u2 s2 head a2 t))
      else Ok None) in
    let? (s3, rosen_f) := rp_add s2 mk2 tail head ua (draw tb) bs k in
    let js := junctions tys in
    let? (s4, jFactor) := (if decide (js = []) then Ok (s3, 1) else junction_factor s3 mk2 mol plus js) in
    let ratio := jFactor * rosen_f / rosen_r in
    let accept := metropolis ratio z in
    let s5 := set_type s4 tail oldType in
    let mk3 := set_mask bonded mk2 tail nb in
    if accept then
      let? s6 := rp_shift s5 c in Ok (ratio, s6, mk3, true)
    else
      let pos := move (sPos s5) tail oldPos in
      let? l := cl_add M toGen (sCells s5) tail (pos tail) in
      Ok (ratio, MC pos (sTy s5) l, mk3, false).
End Rept.
