(** Model of the samples of StructureFactor, IntraStructureFactor and VanHove.  A complex number is a pair of real numbers.  Left out: parameters,
    archives except what is said of StructureFactor, and the output but for the file of maxima. *)
From Verif Require Import Base Vec3 BoxSpec OrthoModel EwaldModel.
From Coq Require Import Reals.
Local Open Scope R_scope.

(** waveVectors_[i] of makeWaveVectors, StructureFactor.cpp:239-253, IntraStructureFactor.cpp:229-245 and VanHove.cpp:179-195. *)
Definition makeWave (kb : kbox) (n : vec3 Z) : vec3 R :=
  fold_left (fun q j => vadd q (vscale (IZR (vget n j)) (vget (kRecip kb) j))) [0; 1; 2]%nat (V3 0 0 0).
(** fourierModes_(i, j): the sum over atoms of a coefficient times exp(I q.r), StructureFactor.cpp:171-201, VanHove.cpp:138-165. *)
Definition fourier_mode (coeff : nat -> R) (pos : nat -> vec3 R) (q : vec3 R) (atoms : list nat) : R * R :=
  fold_left (fun m a => let x := vdot (pos a) q in (fst m + coeff a * cos x, snd m + coeff a * sin x)) atoms (0, 0).
(** std::norm (documented). *)
Definition cnorm (c : R * R) : R := fst c * fst c + snd c * snd c.

(** structureFactors_, nSample_, isFirstStep_, StructureFactor.h:115-150, and the file of maxima: for each sample and mode the wave and value. *)
Record sfs := SF { sfS : nat -> nat -> R; sfN : nat; sfFirst : bool; sfFile : list (list (option (vec3 Z) * R * R)) }.

Section Sf.
  (** waveIntVectors_, nMode_ and modes_. *)
  Variables (waves : list (vec3 Z)) (nMode : nat) (modes : nat -> nat -> R).
  (** norm/volume of a wave and a mode, StructureFactor.cpp:204-217. *)
  Definition sf_value (kb : kbox) (atoms : list nat) (ty : nat -> nat) (pos : nat -> vec3 R) (n : vec3 Z) (j : nat) : R :=
    cnorm (fourier_mode (fun a => modes j (ty a)) pos (makeWave kb n) atoms) / kVol kb.
  (** The search for the maximum, StructureFactor.cpp:207-216; an IntVector not assigned is None. *)
  Definition sf_max (kb : kbox) (v : vec3 Z -> R) : option (vec3 Z) * R * R :=
    fold_left (fun m n => if Rle_dec (snd m) (v n) then (Some n, sqrt (normSq (makeWave kb n)), v n) else m) waves (None, 0, 0).
  (** StructureFactor::setup, StructureFactor.cpp:125-141. *)
  Definition sf_setup (s : sfs) : sfs := SF (fun _ _ => 0) 0 (sfFirst s) (sfFile s).
  (** StructureFactor::sample, StructureFactor.cpp:146-234: the file is opened anew at the first step and appended to later. *)
  Definition sf_sample (s : sfs) (kb : kbox) (atoms : list nat) (ty : nat -> nat) (pos : nat -> vec3 R) : sfs :=
    let v n j := sf_value kb atoms ty pos n j in
    let block := map (fun j => sf_max kb (fun n => v n j)) (seq 0 nMode) in
    SF (fun i j => match waves !! i with Some n => if Nat.ltb j nMode then sfS s i j + v n j else sfS s i j | None => sfS s i j end)
       (S (sfN s)) false ((if sfFirst s then [] else sfFile s) ++ [block]).
  (** The value of StructureFactor::output, StructureFactor.cpp:275-277. *)
  Definition sf_output (s : sfs) (i j : nat) : R := sfS s i j / INR (sfN s).
  (** save, then the constructor and loadParameters of a later process, StructureFactor.cpp:31-35, 67-99 and 104-120: isFirstStep_ is not in the
      archive; the file of maxima stays on the disk. *)
  Definition sf_restart (s : sfs) : sfs := SF (sfS s) (sfN s) true (sfFile s).
End Sf.

(** fourierModes_(i, typeId) of one molecule; negative ids stand for nAtomType_, the sum over all atoms, IntraStructureFactor.cpp:179-212. *)
Definition intra_mode (kb : kbox) (pos : nat -> vec3 R) (ty : nat -> Z) (n : vec3 Z) (t : Z) (mol : list nat) : R * R :=
  fourier_mode (fun _ => 1) pos (makeWave kb n) (List.filter (fun a => (Z.ltb t 0 || Z.eqb (ty a) t)%bool) mol).
(** The increment of structureFactors_(i, j) by one call of sample, IntraStructureFactor.cpp:174-221. *)
Definition intra_value (kb : kbox) (pos : nat -> vec3 R) (ty : nat -> Z) (n : vec3 Z) (t0 t1 : Z) (mols : list (list nat)) : R :=
  fold_left (fun s mol => let r0 := intra_mode kb pos ty n t0 mol in let r1 := intra_mode kb pos ty n t1 mol in
    s + (fst r0 * fst r1 - (- snd r0) * snd r1) / kVol kb) mols 0.
(** The sample of accumulators_[i], VanHove.cpp:168-171. *)
Definition vanhove_value (kb : kbox) (coeff : nat -> R) (pos : nat -> vec3 R) (n : vec3 Z) (atoms : list nat) : R * R :=
  let m := fourier_mode coeff pos (makeWave kb n) atoms in (fst m / sqrt (kVol kb), snd m / sqrt (kVol kb)).
