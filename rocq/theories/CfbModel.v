(** Model of the configuration bias move of a chain end: CfbEndBase (src/mcMd/mcMoves/base/CfbEndBase.cpp) and CfbEndMove
    (src/mcMd/mcMoves/linear/CfbEndMove.cpp), over real numbers.  The random choices are arguments.  The program is compiled with pair,
    angle and external potentials; the constructor refuses systems with dihedrals (CfbEndBase.cpp:34-38).  The counters nAttempt and nAccept are left
    out. *)
From Verif Require Import Base Vec3 BoxSpec McCellModel DomainModel SpeciesModel CellListModel PairListModel EnergyModel MoveModel.
From Coq Require Import Reals.
Local Open Scope R_scope.

(** An AnglePotential: energy(cosTheta, type), AnglePotentialImpl.h, and the angles of all molecules as in EnergyModel. *)
Record angpot := AP { apV : R -> Z -> R; apK : gkind }.

Section Cfb.
  (** As in EnergyModel and MoveModel; [sep] p q is the vector dr set by boundary().distanceSq(p, q, dr). *)
  Variables (M : nat) (toGen : vec3 R -> vec3 R) (dist2 : vec3 R -> vec3 R -> R) (wrap : vec3 R -> vec3 R) (sep : vec3 R -> vec3 R -> vec3 R).
  Variables (masked : nat -> nat -> bool) (u : R -> Z -> Z -> R).
  (** The angle potential, if hasAnglePotential(), and the external interaction, if any; bondPotential().energy(rsq, type). *)
  Variables (ang : option angpot) (ext : option (vec3 R -> Z -> R)) (vb : R -> Z -> R).
  (** energyEnsemble().beta(). *)
  Variable beta : R.

  (** getAtomAngles, getAtomGroups.cpp:42-57. *)
  Definition atom_angles (k : gkind) (a : nat) : outcome (list group) :=
    foldM (fun acc id => let? g := aget (kGrp k (kMolOf k a)) id in Ok (acc ++ [g])) [] (kIds k a).
  (** The loop over the angles of the end atom [e] with pivot [p], CfbEndBase.cpp:92-102, 148-158, 232-242: pvtPtr2 and angleTypeId. *)
  Definition cfb_pivot2 (gs : list group) (e p : nat) : option (nat * Z) :=
    fold_left (fun acc g => match gAt g with
      | [a0; a1; a2] => if decide (a1 = p) then Some (if decide (a0 = e) then a2 else a0, gTy g) else acc
      | _ => acc
      end) gs None.
  (** Angle energy, CfbEndBase.cpp:88-113, 144-169, 229-253; pvtPtr2 may still be a null pointer, which is then dereferenced. *)
  Definition cfb_angle (s : mcs) (e p : nat) : outcome R :=
    match ang with
    | None => Ok 0
    | Some ap =>
        let? gs := atom_angles (apK ap) e in
        match cfb_pivot2 gs e p with
        | None => UB
        | Some (p2, t) =>
            let rsq1 := dist2 (sPos s p) (sPos s p2) in
            let rsq2 := dist2 (sPos s e) (sPos s p) in
            Ok (apV ap (vdot (sep (sPos s p) (sPos s p2)) (sep (sPos s e) (sPos s p)) / sqrt (rsq1 * rsq2)) t)
        end
    end.
  (** Pair, angle and external energy of the end atom, CfbEndBase.cpp:73-120, 137-177, 222-261. *)
  Definition cfb_energy (s : mcs) (e p : nat) : outcome R :=
    let? x := pair_atom M toGen dist2 masked u s e in
    let? y := cfb_angle s e p in
    Ok (x + y + ext_atom ext s e).
  (** endPtr->position() = shift(pvtPos + length * bondVec), CfbEndBase.cpp:132-135, 216-221. *)
  Definition cfb_try (s : mcs) (e : nat) (pvt : vec3 R) (len : R) (b : vec3 R) : mcs :=
    MC (move (sPos s) e (wrap (vadd pvt (vscale len b)))) (sTy s) (sCells s).

  (** CfbEndBase::deleteEndAtom, CfbEndBase.cpp:62-182; [bs] are the nTrial_ - 1 random unit vectors.  The system (the position of the end
      atom is that of the last trial), rosenbluth and energy. *)
  Definition deleteEndAtom (s : mcs) (e p : nat) (bondType : Z) (bs : list (vec3 R)) : outcome (mcs * R * R) :=
    let pvt := sPos s p in
    let lengthSq := dist2 pvt (sPos s e) in
    let len := sqrt lengthSq in
    let? energy := cfb_energy s e p in
    let rosenbluth := boltzmann beta energy in
    let energy := energy + vb lengthSq bondType in
    let? (s, rosenbluth) := foldM (fun x b =>
      let s := cfb_try x.1 e pvt len b in
      let? t := cfb_energy s e p in Ok (s, x.2 + boltzmann beta t)) (s, rosenbluth) bs in
    Ok (s, rosenbluth, energy).

  (** CfbEndBase::addEndAtom, CfbEndBase.cpp:189-282; [draw] is the outcome of randomBondLength for each bond type, [bs] are the nTrial_ random
      unit vectors, [k] is the trial chosen by drawFrom. *)
  Definition addEndAtom (s : mcs) (e p : nat) (bondType : Z) (draw : Z -> R) (bs : list (vec3 R)) (k : nat) : outcome (mcs * R * R) :=
    let pvt := sPos s p in
    let len := draw bondType in
    let? x := foldM (fun (x : mcs * list (vec3 R * R) * R) b =>
      let s := cfb_try x.1.1 e pvt len b in
      let? t := cfb_energy s e p in Ok (s, x.1.2 ++ [(sPos s e, t)], x.2 + boltzmann beta t)) (s, [], 0) bs in
    let? t := aget x.1.2 k in
    let s := x.1.1 in
    Ok (MC (move (sPos s) e t.1) (sTy s) (sCells s), x.2, vb (len * len) bondType + t.2).

  (** Index of atom [i] of the loops in its molecule of [n] atoms, and of its pivot, when [r] atoms are regrown: deleting,
      CfbEndMove.cpp:142-144, 156, and growing, 162-164, 179; [plus]: sign is 1. *)
  Definition del_ids (plus : bool) (n i : nat) : nat * nat := if plus then (n - 1 - i, n - 1 - i - 1)%nat else (i, i + 1)%nat.
  (** The same for growing, CfbEndMove.cpp:162-164, 179. *)
  Definition add_ids (plus : bool) (n r i : nat) : nat * nat :=
    if plus then (n - r + i, n - r + i - 1)%nat else (r - 1 - i, r - 1 - i + 1)%nat.
  (** Index of the bond used, the same in both loops, CfbEndMove.cpp:145-149, 165-169. *)
  Definition bond_id (plus : bool) (n i : nat) : nat := if plus then (n - 1 - 1 - i)%nat else i.

  (** Body of the first loop, CfbEndMove.cpp:143-157. *)
  Definition cfb_del (mol : list nat) (bts : list Z) (plus : bool) (dels : nat -> list (vec3 R)) (x : mcs * R) (i : nat) : outcome (mcs * R) :=
    let? e := aget mol (del_ids plus (length mol) i).1 in
    let? p := aget mol (del_ids plus (length mol) i).2 in
    let? t := aget bts (bond_id plus (length mol) i) in
    let? (s, w, _) := deleteEndAtom x.1 e p t (dels i) in
    let? c := cl_delete (sCells s) e in
    Ok (MC (sPos s) (sTy s) c, x.2 * w).
  (** Body of the second loop, CfbEndMove.cpp:163-180. *)
  Definition cfb_add (mol : list nat) (bts : list Z) (r : nat) (plus : bool) (adds : nat -> (Z -> R) * list (vec3 R) * nat) (x : mcs * R) (i : nat) : outcome (mcs * R) :=
    let? e := aget mol (add_ids plus (length mol) r i).1 in
    let? p := aget mol (add_ids plus (length mol) r i).2 in
    let? t := aget bts (bond_id plus (length mol) i) in
    let? (s, w, _) := addEndAtom x.1 e p t (adds i).1.1 (adds i).1.2 (adds i).2 in
    let? c := cl_add M toGen (sCells s) e (sPos s e) in
    Ok (MC (sPos s) (sTy s) c, x.2 * w).
  (** CfbEndMove::move, CfbEndMove.cpp:100-208, for the molecule with atoms [mol] and bond types [bts] and the end chosen; [r] is nRegrow_, [dels] i
      are the unit vectors used by the i-th deletion, [adds] i the random choices of the i-th addition, [z] the random number used by metropolis.  Result:
      rosen_f / rosen_r, the system, accept. *)
  Definition cfb_end_move (mol : list nat) (bts : list Z) (r : nat) (plus : bool) (dels : nat -> list (vec3 R))
      (adds : nat -> (Z -> R) * list (vec3 R) * nat) (z : R) (s : mcs) : outcome (R * mcs * bool) :=
    if decide (length mol <= r)%nat then Throw else
    let? old := foldM (fun acc i => let? e := aget mol (add_ids plus (length mol) r i).1 in Ok (acc ++ [(e, sPos s e)])) [] (seq 0 r) in
    let? (s1, rosen_r) := foldM (cfb_del mol bts plus dels) (s, 1) (seq 0 r) in
    let? (s2, rosen_f) := foldM (cfb_add mol bts r plus adds) (s1, 1) (seq 0 r) in
    let ratio := rosen_f / rosen_r in
    if metropolis ratio z then Ok (ratio, s2, true)
    else
      let? s3 := foldM (fun s x => update_cell M toGen (MC (move (sPos s) x.1 x.2) (sTy s) (sCells s)) x.1) s2 old in
      Ok (ratio, s3, false).
End Cfb.
