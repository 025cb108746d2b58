(** Property C07: an orthorhombic boundary survives output and re-input. *)
From Verif Require Import Base Vec3 OrthoModel BoxSpec OrthoSpec OrthoProofs BoxIoModel.
From Coq Require Import Reals Lra.
Local Open Scope R_scope.

Lemma owf_unique b b' l lat : owf b l lat -> owf b' l lat -> b = b'.
Proof.
  intros [_ A1 A2 A3 A4 A5 A6 A7 A8 A9 A10] [_ B1 B2 B3 B4 B5 B6 B7 B8 B9 B10].
  destruct b, b'; simpl in *; congruence.
Qed.

Lemma edges_shape ops : 
  match system ops with
  | Tetragonal => vy (edges ops) = vz (edges ops)
  | Cubic => vx (edges ops) = vy (edges ops) /\ vx (edges ops) = vz (edges ops)
  | _ => True end.
Proof. unfold system, edges. destruct (last ops) as [[]|]; simpl; auto. Qed.

Lemma system_cases ops : system ops = Orthorhombic \/ system ops = Tetragonal \/ system ops = Cubic.
Proof. unfold system. destruct (last ops) as [[]|]; auto. Qed.

(** C07, stream operators: whatever box was set up, and whatever box object it is
    read into, reading the text gives back the lattice system and the lengths as
    rounded by the number format, and consumes exactly the text.  If the numbers
    survive printing, the object is identical in every member. *)
Theorem ortho_text_round_trip :
  forall rnd ops b2 rest, Forall box_op_ok ops -> a_box b2 ->
  (forall x, 0 < x -> 0 < rnd x) ->
  exists b', ortho_in (ortho_out rnd (box ops) ++ rest) b2 = Ok (b', rest) /\
    oLat b' = oLat (box ops) /\ oLen b' = vmap rnd (oLen (box ops)) /\
    ((forall i, (i < 3)%nat -> rnd (vget (oLen (box ops)) i) = vget (oLen (box ops)) i) ->
     b' = box ops).
Proof.
  intros rnd ops b2 rest Ho (ops2 & Ho2 & ->) Hpos.
  pose proof (owf_box ops Ho) as W. pose proof (owf_box ops2 Ho2) as W2.
  pose proof (edges_shape ops) as Hsh. pose proof (system_cases ops) as Hc.
  set (l := edges ops) in *. set (lat := system ops) in *. clearbody l lat.
  destruct l as [x y z]. destruct (w_pos _ _ _ W) as (Px & Py & Pz). simpl in *.
  assert (P' : positive3 (V3 (rnd x) (rnd y) (rnd z))) by (unfold positive3; simpl; auto).
  pose proof (owf_reset _ _ _ _ lat W2 P') as W3.
  exists (ortho_reset (box ops2) (V3 (rnd x) (rnd y) (rnd z)) lat).
  split; [|split; [|split]].
  - unfold ortho_out. rewrite (w_lat _ _ _ W), (w_len _ _ _ W).
    destruct Hc as [->|[->| ->]]; simpl in *.
    + done.
    + by rewrite Hsh.
    + destruct Hsh as [<- <-]. done.
  - rewrite (w_lat _ _ _ W3). by rewrite (w_lat _ _ _ W).
  - rewrite (w_len _ _ _ W3), (w_len _ _ _ W). done.
  - intros Hr. rewrite (w_len _ _ _ W) in Hr.
    pose proof (Hr 0%nat ltac:(lia)) as E0. pose proof (Hr 1%nat ltac:(lia)) as E1.
    pose proof (Hr 2%nat ltac:(lia)) as E2. simpl in E0, E1, E2.
    rewrite E0, E1, E2 in *. by apply (owf_unique _ _ (V3 x y z) lat).
Qed.

(** C07, archive: loading what was saved succeeds, gives the same object and
    consumes exactly what was written. *)
Theorem ortho_archive_round_trip :
  forall feq ops rest, (forall x, feq x x = true) -> Forall box_op_ok ops ->
  ortho_load feq (ortho_save (box ops) ++ rest) = Ok (box ops, rest).
Proof.
  intros feq ops rest Hf Ho. unfold ortho_load, ortho_save. simpl.
  pose proof (owf_box ops Ho) as W.
  assert (V : ortho_isValid feq (box ops) = true).
  { set (b := box ops) in *. clearbody b. set (l := edges ops) in *. clearbody l. destruct l as [x y z].
    pose proof (w_pos _ _ _ W) as (Px & Py & Pz). simpl in Px, Py, Pz.
    unfold ortho_isValid, region_isValid, dot.
    rewrite (w_brav _ _ _ W), (w_recip _ _ _ W), (w_min _ _ _ W), (w_max _ _ _ W),
      (w_len _ _ _ W), (w_half _ _ _ W), (w_vol _ _ _ W), (w_inv _ _ _ W).
    unfold diag, vzero. cbn [vx vy vz vget forallb Nat.eqb].
    assert (F : forall u v, u = v -> feq u v = true) by (intros ? ? ->; apply Hf).
    destruct (Rle_dec x 0); [lra|]. destruct (Rle_dec y 0); [lra|]. destruct (Rle_dec z 0); [lra|].
    rewrite !F by (field; lra). done. }
  set (b := box ops) in *. clearbody b. destruct b. simpl. by rewrite V.
Qed.

(** C07, MPI: the lengths arrive, and so does an orthorhombic box ... *)
Theorem ortho_mpi_round_trip_partial :
  forall ops b2, Forall box_op_ok ops -> a_box b2 ->
  let b' := ortho_recv (ortho_send (box ops)) b2 in
  oLen b' = oLen (box ops) /\ oLat b' = Orthorhombic /\
  (oLat (box ops) = Orthorhombic -> b' = box ops).
Proof.
  intros ops b2 Ho (ops2 & Ho2 & ->) b'.
  pose proof (owf_box ops Ho) as W. pose proof (owf_box ops2 Ho2) as W2.
  assert (W3 : owf b' (edges ops) Orthorhombic).
  { unfold b', ortho_recv, ortho_send, setOrthorhombic. rewrite (w_len _ _ _ W).
    eapply owf_reset; [done|apply W]. }
  split; [|split].
  - by rewrite (w_len _ _ _ W3), (w_len _ _ _ W).
  - apply W3.
  - intros E. rewrite (w_lat _ _ _ W) in E. rewrite E in W. by apply (owf_unique _ _ _ _ W3 W).
Qed.

(** ... but the lattice system is lost: a cubic box becomes orthorhombic on the
    receiving processors, and its text form changes. *)
Theorem ortho_mpi_round_trip_refuted :
  exists ops b2, Forall box_op_ok ops /\ a_box b2 /\
  oLat (ortho_recv (ortho_send (box ops)) b2) <> oLat (box ops) /\
  ortho_out (fun x => x) (ortho_recv (ortho_send (box ops)) b2) <>
  ortho_out (fun x => x) (box ops).
Proof.
  exists [SetCub 2], (box [SetCub 2]).
  assert (H : Forall box_op_ok [SetCub 2]) by (repeat constructor; simpl; lra).
  split; [done|]. split; [exists [SetCub 2]; done|].
  unfold ortho_recv, ortho_send, setOrthorhombic, ortho_out, box; simpl. split; congruence.
Qed.

Example box_io_example : Forall box_op_ok [SetOrtho (V3 2 3 5); SetTetra 3 4] /\
  a_box (box [SetCub 7]) /\ oLat (box [SetOrtho (V3 2 3 5); SetTetra 3 4]) = Tetragonal.
Proof.
  split; [repeat constructor; unfold positive3; simpl; lra|]. split; [|done].
  exists [SetCub 7]. split; [|done]. repeat constructor; simpl; lra.
Qed.

Print Assumptions ortho_text_round_trip.
Print Assumptions ortho_archive_round_trip.
Print Assumptions ortho_mpi_round_trip_partial.
Print Assumptions ortho_mpi_round_trip_refuted.
