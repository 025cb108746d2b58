(** Model of the free energy perturbations and of replica exchange: src/mcMd/perturb (Perturbation, LinearPerturbation, McEnergyPerturbation,
    McPairPerturbation, McExternalPerturbation, McPairExternalPerturbation, ReplicaMove), over real numbers.  Archives, the output file and the observers of
    ReplicaMove are left out.  MPI is modelled by messages with a destination, a tag and a value. *)
From Verif Require Import Base Vec3 BoxSpec OrthoModel MonoModel McCellModel DomainModel SpeciesModel CellListModel PairListModel EnergyModel MoveModel.
From Coq Require Import Reals.
Local Open Scope R_scope.

(** Column i of parameters_ in mode 1, by rank, Perturbation.cpp:49-57: first the two ends, then the ranks between. *)
Definition ladder (size : nat) (ini fin : R) (j : nat) : R :=
  if Nat.eqb j (size - 1) then fin else if Nat.eqb j 0 then ini else ini + INR j * ((fin - ini) / INR (size - 1)).

Section Derivatives.
  (** As in EnergyModel: Cell::MaxAtomCell, distanceSq, Mask::isMasked, the energy of the pair interaction. *)
  Variables (M : nat) (dist2 : vec3 R -> vec3 R -> R) (masked : nat -> nat -> bool) (u : R -> Z -> Z -> R).

  (** The loop of McPairPerturbation::derivative, McPairPerturbation.h:215-255, and the same in McPairExternalPerturbation.h:231-271. *)
  Definition pert_pairs (s : mcs) : outcome R :=
    foldM (fun e ic =>
      let? (nb, nIn) := cell_neighbors M (sCells s) ic in
      foldM (fun e ip => let? j := aget nb ip in
        Ok (fold_left (fun e k => if decide (j < k)%nat then if decide (sTy s j = sTy s k) then e else
              if masked j k then e else e + pair_u dist2 u s j k else e) nb e))
        e (seq 0 nIn)) 0 (seqZ 0 (clTot (sCells s))).
  (** fabs(parameter_[i] - parameter(i)) > 1.0E-8, McPairPerturbation.h:202-204. *)
  Definition unset (stored current : R) : bool := if Rlt_dec (1 / 100000000) (Rabs (stored - current)) then true else false.
  (** McPairPerturbation::derivative, McPairPerturbation.h:196-265, for i = 0; [beta] is the inverse temperature if the ensemble is isothermal, [stored] is
      parameter_[0] and [current] is epsilon(0, 1).  Also McPairExternalPerturbation::derivative(0), McPairExternalPerturbation.h:222-280. *)
  Definition pair_derivative (beta : option R) (stored current : R) (s : mcs) : outcome R :=
    if unset stored current then Throw else
    match beta with
    | None => Throw
    | Some b => let? e := pert_pairs s in Ok (e * b / stored) end.
  (** McExternalPerturbation::derivative, McExternalPerturbation.h:170-204, for i = 0; [atoms] in the order of the loops, [ext] is the energy of the external
      interaction. *)
  Definition external_derivative (ext : vec3 R -> Z -> R) (atoms : list nat) (beta : option R) (stored current : R) (s : mcs) : outcome R :=
    if unset stored current then Throw else
    let e := fold_left (fun e a => e + ext (sPos s a) (sTy s a)) atoms 0 in
    match beta with None => Throw | Some b => Ok (e * b / stored) end.
  (** McPairExternalPerturbation::derivative for i = 1, McPairExternalPerturbation.h:281-306. *)
  Definition pair_external_derivative1 (ext : vec3 R -> Z -> R) (atoms : list nat) (beta : option R) (stored current : R) (s : mcs) : outcome R :=
    if unset stored current then Throw else
    let e := fold_left (fun e a => e + ext (sPos s a) (sTy s a)) atoms 0 in
    match beta with None => Throw | Some b => Ok (-1 * (e * b / stored)) end.
  (** LinearPerturbation::difference, LinearPerturbation.h:84-93, from the parameters of the partner, the own parameters and the derivatives. *)
  Definition difference (partner own deriv : list R) : R := fold_left (fun d t => d + (t.1.1 - t.1.2) * t.2) (zip (zip partner own) deriv) 0.
End Derivatives.

(** McEnergyPerturbation::setParameter and parameter, McEnergyPerturbation.cpp:41-54, with EnergyEnsemble::setTemperature and temperature. *)
Definition energy_parameter (stored : R) : R := let T := 1 / stored in 1 / T.

Section Replica.
  (** nParameters_; allDerivatives[i][k] and allParameters[i][k], ReplicaMove.cpp:186-204. *)
  Variables (nP : nat) (D P : nat -> nat -> R).

  (** The second of the pair, ReplicaMove.cpp:217-219, from the two draws of uniformInt. *)
  Definition partner (i j0 : nat) : nat := if Nat.leb i j0 then S j0 else j0.
  (** weight, ReplicaMove.cpp:222-227, for permutation[i] = [pi] and permutation[j] = [pj]. *)
  Definition swap_weight (i j pi pj : nat) : R := fold_left (fun w k => w + (P pj k - P pi k) * (D i k - D j k)) (seq 0 nP) 0.
  (** One step of the sampling of permutations, ReplicaMove.cpp:215-238; the two draws of uniformInt and the deviate of metropolis.  An index outside the
      arrays is undefined behaviour. *)
  Definition swap_step (perm : list nat) (draw : nat * nat * R) : outcome (list nat) :=
    let '(i, j0, r) := draw in
    let j := partner i j0 in
    let? pi := aget perm i in
    let? pj := aget perm j in
    if metropolis (exp (- swap_weight i j pi pj)) r then
      let? perm := aset perm i pj in aset perm j pi
    else Ok perm.
  (** nSampling_ steps from the identity, ReplicaMove.cpp:210-239; nProcs_ = [n]. *)
  Definition sample_permutation (n : nat) (draws : list (nat * nat * R)) : outcome (list nat) := foldM swap_step (seq 0 n) draws.
End Replica.

(** A message of MPI::INT (ReplicaMove.cpp:243 and 248): its destination, tag and value. *)
Record msg := Msg { mTo : nat; mTag : nat; mVal : nat }.
(** The calls of Send by rank 0 in order, ReplicaMove.cpp:242-251. *)
Definition sends (perm : list nat) : list msg :=
  mjoin (imap (fun i p => (if Nat.eqb i 0 then [] else [Msg i 0 p]) ++ (if Nat.eqb p 0 then [] else [Msg p 1 i])) perm).
(** sendPt and recvPt of rank 0, ReplicaMove.cpp:245 and 250: the last assignment counts. *)
Definition root_send (perm : list nat) : option nat := perm !! 0%nat.
(** ReplicaMove.cpp:250. *)
Definition root_recv (perm : list nat) : option nat := fold_left (fun o t => if Nat.eqb t.2 0 then Some t.1 else o) (imap pair perm) None.
(** Recv of rank [r] with a tag, ReplicaMove.cpp:257 and 259: the first message to it with this tag. *)
Definition receive (ms : list msg) (r tag : nat) : option nat :=
  mVal <$> head (filter (fun m => mTo m = r /\ mTag m = tag) ms).
(** sendPt and recvPt of every rank, ReplicaMove.cpp:242-260, if every message of rank 0 is buffered. *)
Definition send_pt (perm : list nat) (r : nat) : option nat := if Nat.eqb r 0 then root_send perm else receive (sends perm) r 0.
(** ReplicaMove.cpp:250 and 259. *)
Definition recv_pt (perm : list nat) (r : nat) : option nat := if Nat.eqb r 0 then root_recv perm else receive (sends perm) r 1.
(** The same calls of Send and Recv if no message is buffered, as MPI allows: Send returns only when the destination has called the Recv that takes the
    message.  [next] is the tag of the Recv at which each rank waits: 0, then 1, ReplicaMove.cpp:256-260.  False if rank 0 waits for ever. *)
Fixpoint rendezvous (ms : list msg) (next : nat -> nat) : bool :=
  match ms with
  | [] => true
  | m :: ms => Nat.eqb (next (mTo m)) (mTag m) && rendezvous ms (fun r => if Nat.eqb r (mTo m) then S (next r) else next r)
  end.
(** The exchange of configurations (lengths of the boundary and positions), ReplicaMove.cpp:262-319: every rank sends its own to sendPt and takes one from
    recvPt; None if it waits for a message that nobody sends. *)
Definition exchanged {C} (perm : list nat) (x : nat -> C) (r : nat) : option C :=
  match send_pt perm r, recv_pt perm r with
  | Some snd, Some rcv =>
      if Nat.eqb rcv r || Nat.eqb snd r then Some (x r) else
      match send_pt perm rcv with
      | Some d => if Nat.eqb d r then Some (x rcv) else None
      | None => None end
  | _, _ => None
  end.
