(** Model of SymmetryGroup<PointSymmetry>, PointGroup and the stars of StructureFactorGrid.  int is Z.  A loop without bound runs as long as there is
    fuel; None means that the fuel was used up.  Left out: text I/O of the classes, archives, sampling. *)
From Verif Require Import Base Vec3.
Local Open Scope Z_scope.

(** R_ of a PointSymmetry, PointSymmetry.h:72-79. *)
Notation mat := (vec3 (vec3 Z)).
(** R(i, j), PointSymmetry.h:174-181. *)
Definition ent (A : mat) (i j : nat) : Z := vget (vget A i) j.
(** A matrix assigned entry by entry, the loops over i and j of PointSymmetry.cpp. *)
Definition mat_of (f : nat -> nat -> Z) : mat := (V3 (V3 (f 0 0) (f 0 1) (f 0 2)) (V3 (f 1 0) (f 1 1) (f 1 2)) (V3 (f 2 0) (f 2 1) (f 2 2)))%nat.
(** makeIdentity, PointSymmetry.cpp:53-65. *)
Definition sid : mat := mat_of (fun i j => if Nat.eqb i j then 1 else 0).
(** inverse(), PointSymmetry.cpp:70-80. *)
Definition sinv (A : mat) : mat := mat_of (fun i j => ent A j i).
(** operator *, PointSymmetry.cpp:114-127. *)
Definition smul (A B : mat) : mat := mat_of (fun i j => fold_left (fun s k => s + ent A i k * ent B k j) [0; 1; 2]%nat 0).
(** operator ==, PointSymmetry.cpp:99-110. *)
Definition sym_eqb (A B : mat) : bool :=
  forallb (fun i => forallb (fun j => Z.eqb (ent A i j) (ent B i j)) [0; 1; 2]%nat) [0; 1; 2]%nat.
(** operator * of an IntVector and a PointSymmetry, PointSymmetry.cpp:147-158. *)
Definition vmulr (V : vec3 Z) (S : mat) : vec3 Z :=
  let f i := fold_left (fun s j => s + vget V j * ent S j i) [0; 1; 2]%nat 0 in V3 (f 0%nat) (f 1%nat) (f 2%nat).

(** elements_ of a SymmetryGroup, SymmetryGroup.h:109. *)
Notation group := (list mat).
(** The constructor, SymmetryGroup.h:121-126. *)
Definition group_new : group := [sid].
(** find, SymmetryGroup.h:166-176: is the pointer returned not null? *)
Definition gfind (A : mat) (l : group) : bool := existsb (fun B => sym_eqb A B) l.
(** add, SymmetryGroup.h:182-195. *)
Definition gadd (l : group) (A : mat) : group * bool := if gfind A l then (l, false) else (l ++ [A], true).
(** The addition of all inverses, SymmetryGroup.h:208-212. *)
Definition add_inverses (l : group) : group := fold_left (fun l' A => fst (gadd l' (sinv A))) l l.
(** One pass of the outer loop, SymmetryGroup.h:217-234, over the elements present at its start; the second result is complete. *)
Definition gpass (l : group) : group * bool :=
  fold_left (fun s A => fold_left (fun s B =>
      let C := smul A B in
      let r := gadd (fst s) C in
      let q := gadd (fst r) (sinv C) in
      (fst q, snd s && negb (snd r) && negb (snd q))) l s) l (l, true).
(** The outer loop, SymmetryGroup.h:215-235. *)
Fixpoint gloop (fuel : nat) (l : group) : option group :=
  match fuel with O => None | S f => let r := gpass l in if snd r then Some (fst r) else gloop f (fst r) end.
(** makeCompleteGroup, SymmetryGroup.h:201-237. *)
Definition makeCompleteGroup (fuel : nat) (l : group) : option group := gloop fuel (add_inverses l).
(** isValid, SymmetryGroup.h:244-280. *)
Definition gvalid (l : group) : outcome bool :=
  if negb (gfind sid l) then Throw else
  if forallb (fun i => match l !! i with None => true | Some A =>
       gfind (sinv A) l && forallb (fun j => match l !! j with None => true | Some B =>
         negb (negb (Nat.eqb i j) && sym_eqb A B) && gfind (smul A B) l end) (seq 0 (length l)) end) (seq 0 (length l))
  then Ok true else Throw.

(** operator == of IntVectors (documented in util). *)
Definition ivec_eqb (u v : vec3 Z) : bool := Z.eqb (vx u) (vx v) && Z.eqb (vy u) (vy v) && Z.eqb (vz u) (vz v).
(** makeStar with a star of capacity cap, PointGroup.h:57-81. *)
Definition makeStar (cap : nat) (g : group) (root : vec3 Z) : outcome (list (vec3 Z)) :=
  if Nat.ltb cap (length g) then Throw else
  Ok (fold_left (fun star A => let v := vmulr root A in if existsb (ivec_eqb v) star then star else star ++ [v]) g []).

(** LatticeSystem, LatticeSystem.h:28-29. *)
Inductive lattice := Cubic | Tetragonal | Orthorhombic | Monoclinic | Triclinic | Rhombohedral | Hexagonal.
(** The elements c, b, a in the order in which they are added, StructureFactorGrid.cpp:65-83, 123-141 and 177-195. *)
Definition grid_gens (L : lattice) : list mat :=
  match L with
  | Cubic => [V3 (V3 0 1 0) (V3 0 0 1) (V3 1 0 0); V3 (V3 (-1) 0 0) (V3 0 1 0) (V3 0 0 1); V3 (V3 0 1 0) (V3 1 0 0) (V3 0 0 1)]
  | Tetragonal => [V3 (V3 1 0 0) (V3 0 (-1) 0) (V3 0 0 1); V3 (V3 (-1) 0 0) (V3 0 1 0) (V3 0 0 1); V3 (V3 1 0 0) (V3 0 0 1) (V3 0 1 0)]
  | Orthorhombic => [V3 (V3 1 0 0) (V3 0 1 0) (V3 0 0 (-1)); V3 (V3 1 0 0) (V3 0 (-1) 0) (V3 0 0 1); V3 (V3 (-1) 0 0) (V3 0 1 0) (V3 0 0 1)]
  | _ => []
  end.
(** The capacity of star, StructureFactorGrid.cpp:86, 144 and 198. *)
Definition grid_cap (L : lattice) : nat := match L with Cubic => 48 | _ => 16 end.
(** nStar_, StructureFactorGrid.cpp:59, 118 and 172. *)
Definition grid_nStar (L : lattice) (H : nat) : nat :=
  match L with
  | Cubic => (H + 1) * (H + 2) * (H + 3) / 6
  | Tetragonal => (H + 1) * (H + 1) * (H + 2) / 2
  | Orthorhombic => (H + 1) * (H + 1) * (H + 1)
  | _ => 0 end%nat.
(** The vectors g of the three loops in their order, StructureFactorGrid.cpp:89-94, 147-152 and 201-206. *)
Definition grid_roots (L : lattice) (H : nat) : list (vec3 Z) :=
  let upto n := seq 0 (S n) in
  let top1 h := match L with Cubic => h | _ => H end in
  let top2 k := match L with Orthorhombic => H | _ => k end in
  h ← upto H; k ← upto (top1 h); l ← upto (top2 k); [V3 (Z.of_nat h) (Z.of_nat k) (Z.of_nat l)].
(** waveIntVectors_, starIds_, starSizes_ as filled so far (StructureFactor.h:134, StructureFactorGrid.h:122-125, filled at StructureFactorGrid.cpp:95-102); their lengths are j, i and i. *)
Record grid := Grid { gWaves : list (vec3 Z); gIds : list nat; gSizes : list nat }.
(** The body of the loops, StructureFactorGrid.cpp:95-102, 153-160 and 207-214. *)
Definition grid_step (cap : nat) (G : group) (s : grid) (g : vec3 Z) : outcome grid :=
  let? star := makeStar cap G g in
  Ok (Grid (gWaves s ++ star) (gIds s ++ [length (gWaves s)]) (gSizes s ++ [length star])).
(** readParameters from the choice of lattice on, StructureFactorGrid.cpp:56-226.  Arrays are lists that grow, since no index exceeds the sizes if the
    final tests succeed.  For other lattices nothing is assigned: nStar_ is 0 and the nWave_ vectors are those that allocate made. *)
Definition grid_read (fuel : nat) (L : lattice) (H : nat) : option (outcome grid) :=
  match L with
  | Cubic | Tetragonal | Orthorhombic =>
    match makeCompleteGroup fuel (fold_left (fun l A => fst (gadd l A)) (grid_gens L) group_new) with
    | None => None
    | Some G => Some (
        let? s := run (grid_step (grid_cap L) G) (Grid [] [] []) (grid_roots L H) in
        if negb (Nat.eqb (length (gIds s)) (grid_nStar L H)) then Throw else
        if negb (Nat.eqb (length (gWaves s)) ((2 * H + 1) * (2 * H + 1) * (2 * H + 1))) then Throw else Ok s)
    end
  | _ => Some (Ok (Grid [] [] []))
  end.
