(** Proofs about the buffer: encoding, sending, receiving. *)
From Verif Require Import Base SpeciesModel SpeciesProofs BufferModel BufferSpec.
Local Open Scope Z_scope.

(** ** Numbers *)
Lemma enc_length n z : length (enc n z) = n.
Proof. revert z. induction n as [|n IH]; intros z; cbn; [done|]. by rewrite IH. Qed.
Lemma dec_enc n z : 0 <= z < 256 ^ Z.of_nat n -> dec (enc n z) = z.
Proof.
  revert z. induction n as [|n IH]; intros z Hz.
  - cbn in *. lia.
  - cbn [enc dec]. replace (Z.of_nat (S n)) with (Z.of_nat n + 1) in Hz by lia. rewrite Z.pow_add_r in Hz by lia.
    rewrite IH.
    + pose proof (Z.div_mod z 256). lia.
    + split; [apply Z.div_pos; lia|]. apply Z.div_lt_upper_bound; lia.
Qed.
Lemma enc_int_length z : length (enc_int z) = 4%nat.
Proof. apply enc_length. Qed.
Lemma dec_enc_int z : is_int z -> dec_int (enc_int z) = z.
Proof.
  unfold is_int. intros Hz. unfold dec_int, enc_int. rewrite dec_enc.
  2:{ change (256 ^ Z.of_nat 4) with (2 ^ 32). apply Z.mod_pos_bound. lia. }
  destruct (decide (0 <= z)).
  - rewrite Z.mod_small by lia. destruct (decide _); lia.
  - assert (z mod 2 ^ 32 = z + 2 ^ 32) as ->.
    { symmetry. apply Z.mod_unique with (-1); lia. }
    destruct (decide _); lia.
Qed.
Lemma enc_vec_length v : length (enc_vec v) = 24%nat.
Proof. unfold enc_vec. by rewrite !app_length, !enc_length. Qed.
Lemma dec_enc_vec v : each is_double v -> dec_vec (enc_vec v) = v.
Proof.
  destruct v as [[x y] z]. intros (Hx & Hy & Hz). cbn in Hx, Hy, Hz. unfold dec_vec, enc_vec. cbn [fst snd].
  assert (E : forall w, is_double w -> dec (enc 8 w) = w) by (intros w Hw; by apply dec_enc).
  rewrite (take_app_alt (enc 8 x)) by (by rewrite enc_length).
  rewrite (drop_app_alt (enc 8 x)) by (by rewrite enc_length).
  rewrite (take_app_alt (enc 8 y)) by (by rewrite enc_length).
  rewrite (app_assoc (enc 8 x)), (drop_app_alt (enc 8 x ++ enc 8 y)) by (by rewrite app_length, !enc_length).
  rewrite firstn_all2 by (by rewrite enc_length).
  by rewrite !E.
Qed.
Lemma enc_ctx_length v : length (enc_ctx v) = 12%nat.
Proof. unfold enc_ctx. by rewrite !app_length, !enc_int_length. Qed.
Lemma dec_enc_ctx v : each is_int v -> dec_ctx (enc_ctx v) = v.
Proof.
  destruct v as [[x y] z]. intros (Hx & Hy & Hz). cbn in Hx, Hy, Hz. unfold dec_ctx, enc_ctx. cbn [fst snd].
  rewrite (take_app_alt (enc_int x)) by (by rewrite enc_int_length).
  rewrite (drop_app_alt (enc_int x)) by (by rewrite enc_int_length).
  rewrite (take_app_alt (enc_int y)) by (by rewrite enc_int_length).
  rewrite (app_assoc (enc_int x)), (drop_app_alt (enc_int x ++ enc_int y)) by (by rewrite app_length, !enc_int_length).
  rewrite firstn_all2 by (by rewrite enc_int_length).
  by rewrite !dec_enc_int.
Qed.
Lemma dec_enc_uint z : is_uint z -> dec (enc 4 z) = z.
Proof. intros. by apply dec_enc. Qed.

(** ** Well-formed buffers *)
Record bwf (h : bool) (b : buffer) : Prop := {
  wf_s : length (sMem b) = bCap b;  wf_r : length (rMem b) = bCap b;
  wf_data : Z.of_nat (bCap b) = bData b + 15;  wf_d0 : 0 < bData b;
  wf_int : Z.of_nat (bCap b) < 2 ^ 31;
  wf_caps : 0 < bAtomCap b /\ bAtomCap b * atom_size h <= bData b /\
            0 <= bGhostCap b /\ bGhostCap b * ghost_size h <= bData b;
  wf_tight : bAtomCap b * atom_size h = bData b \/ bGhostCap b * ghost_size h = bData b
}.
Lemma write_length mem p bs : (p + length bs <= length mem)%nat -> length (write mem p bs) = length mem.
Proof. intros. unfold write. rewrite !app_length, take_length, drop_length. lia. Qed.

Lemma bwf_state h b : buffer_state h b -> bwf h b.
Proof.
  assert (HS : forall b mem ptr blk size ty, bwf h b -> length mem = bCap b -> bwf h (bf_send b mem ptr blk size ty)).
  { intros b0 mem ptr blk size ty [] Hm. by split. }
  assert (HR : forall b mem ptr e size ty, bwf h b -> length mem = bCap b -> bwf h (bf_recv b mem ptr e size ty)).
  { intros b0 mem ptr e size ty [] Hm. by split. }
  induction 1 as [a g m1 m2 b H|b _ IH|b ty b' _ IH H|b bs b' _ IH H|b _ IH|b c b' _ IH H|b b' c _ IH H|b n b' l _ IH H
                 |b _ IH|b b' _ IH H|s r r' _ IHs _ IHr H].
  - unfold bf_allocate in H. apply obind_Ok in H as ([] & _ & H). apply obind_Ok in H as ([] & _ & H).
    apply obind_Ok in H as ([] & Ha & H). apply obind_Ok in H as ([] & Hg & H).
    apply check_Ok, bool_decide_eq_true in Ha, Hg.
    apply obind_Ok in H as (ad & Had & H). apply obind_Ok in H as (gd & Hgd & H).
    unfold int_ok in Had, Hgd. destruct (decide _) in Had; [|done]. destruct (decide _) in Hgd; [|done].
    injection Had as <-. injection Hgd as <-.
    assert (HA : 0 < atom_size h) by (by destruct h). assert (HG : 0 < ghost_size h) by (by destruct h).
    destruct (decide (g * ghost_size h < a * atom_size h)) as [Hc|Hc].
    + apply obind_Ok in H as (cap & Hcap & [= <-]). unfold int_ok in Hcap. destruct (decide _) in Hcap; [|done]. injection Hcap as <-.
      split; cbn [bCap bData bAtomCap bGhostCap sMem rMem fst snd]; rewrite ?map_length, ?seq_length; try done; try nia.
      split; [lia|]. split; [lia|]. split; [apply Z.div_pos; nia|]. rewrite Z.mul_comm. apply Z.mul_div_le. lia.
    + apply obind_Ok in H as (cap & Hcap & [= <-]). unfold int_ok in Hcap. destruct (decide _) in Hcap; [|done]. injection Hcap as <-.
      split; cbn [bCap bData bAtomCap bGhostCap sMem rMem fst snd]; rewrite ?map_length, ?seq_length; try done; try nia.
      split; [apply Z.div_str_pos; nia|]. split; [rewrite Z.mul_comm; apply Z.mul_div_le; lia|]. split; lia.
  - apply HS; [done|apply IH].
  - unfold bf_begin in H. apply obind_Ok in H as ([] & _ & H). destruct (sPtr b); [|done]. injection H as <-. apply HS; [done|apply IH].
  - unfold bf_pack in H. destruct (sPtr b) as [p|]; [|done]. destruct (decide _); [done|]. injection H as <-.
    apply HS; [done|]. rewrite write_length; rewrite (wf_s _ _ IH); [done|lia].
  - apply HS; [done|apply IH].
  - unfold bf_end in H. destruct (sPtr b) as [p|]; [|done]. destruct (sBlk b) as [q|]; [|done]. destruct (decide _); [done|].
    injection H as <-. apply HS; [done|]. rewrite write_length; [apply IH|]. cbn [length]. rewrite enc_int_length. lia.
  - unfold bf_beginRecv in H. apply obind_Ok in H as ([] & _ & H). destruct (decide _); [done|]. injection H as <- _.
    apply HR; [done|apply IH].
  - unfold bf_unpack in H. destruct (decide _); [done|]. injection H as <- _. apply HR; [done|apply IH].
  - apply HR; [done|apply IH].
  - unfold bf_endRecv in H. apply obind_Ok in H as ([] & _ & H). apply obind_Ok in H as ([] & _ & [= <-]). apply HR; [done|apply IH].
  - unfold bf_transfer in H. destruct (sPtr s) as [p|]; [|done]. destruct (decide _); [done|]. destruct (decide _); [done|].
    injection H as <-. apply HR; [done|]. rewrite app_length, take_length, drop_length, (wf_r _ _ IHr). lia.
Qed.

(** ** Sending *)
Definition same_recv (b b' : buffer) : Prop :=
  bCap b' = bCap b /\ bData b' = bData b /\ bAtomCap b' = bAtomCap b /\ bGhostCap b' = bGhostCap b /\ rMem b' = rMem b /\
  rPtr b' = rPtr b /\ rEnd b' = rEnd b /\ rSize b' = rSize b /\ rType b' = rType b.

(** Packing some values: it throws exactly if they do not fit; otherwise they are appended. *)
Lemma packs_spec ws : forall b p, sPtr b = Some p -> length (sMem b) = bCap b -> Forall (fun w => w <> []) ws ->
  (ws = [] \/ (p + length (concat ws) <= bCap b)%nat) /\
    (exists b', foldM bf_pack b ws = Ok b' /\ same_recv b b' /\ sPtr b' = Some (p + length (concat ws))%nat /\
       sBlk b' = sBlk b /\ sSize b' = sSize b /\ sType b' = sType b /\ length (sMem b') = length (sMem b) /\
       ((p <= length (sMem b))%nat -> take (p + length (concat ws)) (sMem b') = take p (sMem b) ++ concat ws)) \/
  (bCap b < p + length (concat ws))%nat /\ ws <> [] /\ foldM bf_pack b ws = Throw.
Proof.
  induction ws as [|w ws IH]; intros b p Hp Hl HF.
  { left. split; [by left|]. exists b. split; [done|]. split; [by repeat split|]. cbn. rewrite Nat.add_0_r.
    repeat (split; [done|]). intros _. by rewrite app_nil_r. }
  apply Forall_cons in HF as [Hw HF]. cbn [foldM concat]. rewrite app_length.
  unfold bf_pack at 1 3. rewrite Hp. destruct (decide (bCap b < p + length w)%nat) as [Hc|Hc].
  { right. split; [lia|]. split; done. }
  cbn [obind]. set (b1 := bf_send b (write (sMem b) p w) (Some (p + length w)%nat) (sBlk b) (sSize b) (sType b)).
  assert (HL1 : length (sMem b1) = bCap b1) by (cbn; rewrite write_length; lia).
  destruct (IH b1 (p + length w)%nat eq_refl HL1 HF) as [[Hor (b' & E & HR & H1 & H2 & H3 & H4 & H5 & H6)]|(Hlt & Hne & E)].
  - left. split.
    { right. destruct Hor as [->|Hor]; [cbn; lia|]. cbn [bCap b1 bf_send] in Hor. lia. }
    exists b'. split; [done|]. split; [exact HR|].
    rewrite H1, H2, H3, H4, H5. cbn [sMem sBlk sSize sType b1 bf_send] in *. rewrite write_length by lia.
    replace (p + (length w + length (concat ws)))%nat with (p + length w + length (concat ws))%nat by lia.
    repeat (split; [done|]). intros Hp'. rewrite H6 by (rewrite write_length; lia).
    rewrite app_assoc. f_equal. unfold write.
    rewrite app_assoc, take_app_alt; [done|]. rewrite app_length, take_length. lia.
  - right. cbn [bCap b1 bf_send] in Hlt. split; [lia|]. split; [done|exact E].
Qed.

(** The bytes of a block. *)
Definition body (k : block) : list Z := concat (concat (kItems k)).
Definition head (k : block) : list Z :=
  enc_int (Z.of_nat (length (kItems k))) ++ enc_int (16 + Z.of_nat (length (body k))) ++ enc_int (kType k) ++
  enc_int (if kComplete k then 1 else 0).
Definition image (k : block) : list Z := head k ++ body k.
Definition items_ok (k : block) : Prop := Forall (fun ws => ws <> [] /\ Forall (fun w => w <> []) ws) (kItems k).
Lemma head_length k : length (head k) = 16%nat.
Proof. unfold head. by rewrite !app_length, !enc_int_length. Qed.

Lemma items_spec its : forall b p, sPtr b = Some p -> length (sMem b) = bCap b ->
  Forall (fun ws : list (list Z) => ws <> [] /\ Forall (fun w => w <> []) ws) its ->
  (its = [] \/ (p + length (concat (concat its)) <= bCap b)%nat) /\
    (exists b', foldM pack_item b its = Ok b' /\ same_recv b b' /\ sPtr b' = Some (p + length (concat (concat its)))%nat /\
       sBlk b' = sBlk b /\ sSize b' = sSize b + Z.of_nat (length its) /\ sType b' = sType b /\ length (sMem b') = length (sMem b) /\
       ((p <= length (sMem b))%nat -> take (p + length (concat (concat its))) (sMem b') = take p (sMem b) ++ concat (concat its))) \/
  (bCap b < p + length (concat (concat its)))%nat /\ its <> [] /\ foldM pack_item b its = Throw.
Proof.
  induction its as [|ws its IH]; intros b p Hp Hl HF.
  { left. split; [by left|]. exists b. split; [done|]. split; [by repeat split|]. cbn. rewrite Nat.add_0_r.
    rewrite Z.add_0_r. repeat (split; [done|]). intros _. by rewrite app_nil_r. }
  apply Forall_cons in HF as [[Hne Hw] HF]. cbn [foldM concat]. rewrite !concat_app, app_length. unfold pack_item at 1 3.
  destruct (packs_spec ws b p Hp Hl Hw) as [[Hor (b1 & E & HR & H1 & H2 & H3 & H4 & H5 & H6)]|(Hlt & _ & E)].
  2:{ right. split; [lia|]. split; [done|]. by rewrite E. }
  destruct Hor as [->|Hor]; [done|]. rewrite E. cbn [obind].
  assert (HL1 : length (sMem (bf_incr b1)) = bCap (bf_incr b1)).
  { cbn. rewrite H5. destruct HR as [-> _]. done. }
  destruct (IH (bf_incr b1) _ H1 HL1 HF) as [[Hor' (b' & E' & HR' & H1' & H2' & H3' & H4' & H5' & H6')]|(Hlt & Hne' & E')].
  - left. cbn [bCap bf_incr bf_send sMem sBlk sSize sType] in *. destruct HR as (C1 & C2 & C3 & C4 & C5 & C6 & C7 & C8 & C9). split.
    { right. destruct Hor' as [->|Hor']; [cbn; lia|]. lia. }
    exists b'. split; [done|]. split.
    { destruct HR' as (C1' & C2' & C3' & C4' & C5' & C6' & C7' & C8' & C9'). cbn in *. repeat split; congruence. }
    rewrite H1', H2', H3', H4', H5', H3. split; [f_equal; lia|]. split; [done|]. split; [cbn [length]; lia|]. split; [done|]. split; [done|].
    intros Hp'. replace (p + (length (concat ws) + length (concat (concat its))))%nat
      with (p + length (concat ws) + length (concat (concat its)))%nat by lia.
    rewrite H6' by lia. rewrite (H6 Hp'). by rewrite <- app_assoc.
  - right. cbn [bCap bf_incr bf_send] in Hlt. destruct HR as (C1 & _). split; [lia|]. split; [done|exact E'].
Qed.

(** One block: it throws exactly if there are items and they do not fit after the header; it overruns the buffer exactly if
    there are none and the header does not fit; otherwise the image of the block is appended. *)
Lemma send_block_spec b p k : sPtr b = Some p -> sSize b = 0 -> length (sMem b) = bCap b -> (p <= bCap b)%nat -> items_ok k ->
  ((p + length (image k) <= bCap b)%nat /\
    exists b', send_block b k = Ok b' /\ same_recv b b' /\ sPtr b' = Some (p + length (image k))%nat /\ sBlk b' = None /\ sSize b' = 0 /\
       length (sMem b') = length (sMem b) /\ take (p + length (image k)) (sMem b') = take p (sMem b) ++ image k) \/
  (bCap b < p + length (image k))%nat /\ (kItems k <> [] /\ send_block b k = Throw \/ kItems k = [] /\ send_block b k = UB).
Proof.
  intros Hp Hs Hl Hpl HF. unfold send_block, bf_begin. rewrite Hs, bool_decide_eq_true_2 by done. cbn [check obind]. rewrite Hp. cbn [obind].
  set (b1 := bf_send b (sMem b) (Some (p + 16)%nat) (Some p) 0 (kType k)).
  assert (EI : length (image k) = (16 + length (body k))%nat) by (unfold image; by rewrite app_length, head_length).
  destruct (items_spec (kItems k) b1 (p + 16)%nat eq_refl Hl HF) as [[Hor (b' & E & HR & H1 & H2 & H3 & H4 & H5 & H6)]|(Hlt & Hne & E)].
  2:{ right. cbn [bCap b1 bf_send] in Hlt. unfold body in EI. split; [lia|]. left. rewrite E. done. }
  rewrite E. cbn [obind]. unfold bf_end. rewrite H1, H2. cbn [sBlk sMem sSize sType bCap b1 bf_send] in *. fold (body k) in *.
  destruct (decide (length (sMem b') < p + 16)%nat) as [Hc|Hc].
  { right. destruct Hor as [->|Hor]; [|lia]. split; [lia|]. by right. }
  left. rewrite H5, Hl in Hc.
  assert (Hfit : (p + length (image k) <= bCap b)%nat).
  { rewrite EI. destruct Hor as [E0|Hor]; [|lia]. unfold body. rewrite E0. cbn. lia. }
  split; [done|]. eexists. split; [done|].
  assert (EH : enc_int (sSize b') ++ enc_int (Z.of_nat (p + 16 + length (body k)) - Z.of_nat p) ++ enc_int (sType b') ++
               enc_int (if kComplete k then 1 else 0) = head k).
  { unfold head. rewrite H3, H4. repeat (f_equal; try lia). }
  rewrite EH. cbn [sPtr sBlk sSize sMem bf_send].
  split; [exact HR|]. split; [f_equal; lia|]. split; [done|]. split; [done|]. rewrite write_length by (rewrite head_length; lia).
  split; [done|]. specialize (H6 ltac:(lia)).
  assert (Hpre : take p (sMem b') = take p (sMem b)).
  { assert (take p (take (p + 16 + length (body k)) (sMem b')) = take p (take (p + 16) (sMem b) ++ body k)) as E1 by (by rewrite H6).
    rewrite take_take, Nat.min_l in E1 by lia. rewrite E1. rewrite take_app_le by (rewrite take_length; lia).
    rewrite take_take. f_equal. lia. }
  assert (Hdrop : take (length (body k)) (drop (p + 16) (sMem b')) = body k).
  { assert (drop (p + 16) (take (p + 16 + length (body k)) (sMem b')) = drop (p + 16) (take (p + 16) (sMem b) ++ body k)) as E1 by (by rewrite H6).
    rewrite drop_app_alt in E1 by (rewrite take_length; lia). rewrite <- E1 at 2. rewrite <- (take_drop_commute). done. }
  unfold write. rewrite head_length, EI.
  rewrite Hpre. replace (p + (16 + length (body k)))%nat with (length (take p (sMem b)) + (length (head k) + length (body k)))%nat.
  2:{ rewrite take_length, head_length. lia. }
  rewrite firstn_app_2. f_equal. rewrite firstn_app_2. unfold image. f_equal. exact Hdrop.
Qed.

(** A message of several blocks. *)
Lemma send_message_Ok ks : forall b p b', sPtr b = Some p -> sSize b = 0 -> length (sMem b) = bCap b -> (p <= bCap b)%nat ->
  Forall items_ok ks -> foldM send_block b ks = Ok b' ->
  let n := (p + length (concat (map image ks)))%nat in
  sPtr b' = Some n /\ (n <= bCap b)%nat /\ bCap b' = bCap b /\ length (sMem b') = bCap b /\ sSize b' = 0 /\
  take n (sMem b') = take p (sMem b) ++ concat (map image ks) /\ same_recv b b'.
Proof.
  induction ks as [|k ks IH]; intros b p b' Hp Hs Hl Hpl HF; cbn [foldM map concat].
  - intros [= <-]. cbn. rewrite Nat.add_0_r, app_nil_r. by repeat split.
  - apply Forall_cons in HF as [Hk HF]. intros (b1 & E & H)%obind_Ok.
    destruct (send_block_spec b p k Hp Hs Hl Hpl Hk) as [[Hfit (b1' & E' & HR & H1 & H2 & H3 & H4 & H5)]|(_ & [[_ E']|[_ E']])];
      rewrite E in E'; [|done..]. injection E' as <-.
    destruct HR as (C1 & C2 & C3 & C4 & C5 & C6 & C7 & C8 & C9).
    destruct (IH b1 _ b' H1 H3 ltac:(congruence) ltac:(lia) HF H) as (G1 & G2 & G3 & G4 & G5 & G6 & G7). cbn zeta.
    rewrite app_length. replace (p + (length (image k) + length (concat (map image ks))))%nat
      with (p + length (image k) + length (concat (map image ks)))%nat by lia.
    rewrite C1 in *. repeat (split; [done|]). split; [rewrite G6, H5; by rewrite app_assoc|].
    destruct G7 as (C1' & C2' & C3' & C4' & C5' & C6' & C7' & C8' & C9'). repeat split; congruence.
Qed.

(** ** Receiving *)
Definition adv (b : buffer) (n : nat) : buffer := bf_recv b (rMem b) (rPtr b + n)%nat (rEnd b) (rSize b) (rType b).
(** The bytes at the receive pointer begin with [l]. *)
Definition ahead (b : buffer) (l : list Z) : Prop := length (rMem b) = bCap b /\ exists rest, drop (rPtr b) (rMem b) = l ++ rest.

Lemma ahead_adv b bs l : ahead b (bs ++ l) -> ahead (adv b (length bs)) l.
Proof.
  intros [H1 [rest H2]]. split; [done|]. exists rest. cbn. rewrite <- drop_drop, H2, <- app_assoc. by rewrite drop_app.
Qed.
Lemma adv_adv b n m : adv (adv b n) m = adv b (n + m).
Proof. unfold adv. cbn. f_equal. lia. Qed.
Lemma adv_0 b : adv b 0 = b.
Proof. unfold adv. rewrite Nat.add_0_r. by destruct b. Qed.
Lemma unpack_spec b bs l n : ahead b (bs ++ l) -> length bs = n -> bs <> [] -> bf_unpack b n = Ok (adv b n, bs).
Proof.
  intros [H1 [rest H2]] <- Hne. unfold bf_unpack.
  assert (Hd := f_equal length H2). rewrite drop_length, !app_length in Hd. destruct bs as [|x bs]; [done|].
  rewrite decide_False by (cbn in *; lia). rewrite H2, <- app_assoc. rewrite take_app. done.
Qed.
Lemma ne_len {T} (l : list T) n : length l = S n -> l <> [].
Proof. by intros H ->. Qed.
Lemma un_int_spec b z l : is_int z -> ahead b (enc_int z ++ l) -> un_int b = Ok (adv b 4, z).
Proof.
  intros Hz H. unfold un_int. rewrite (unpack_spec _ _ _ 4 H); [|apply enc_int_length|by eapply ne_len, enc_int_length].
  cbn [obind]. by rewrite dec_enc_int.
Qed.
Lemma un_uint_spec b z l : is_uint z -> ahead b (enc 4 z ++ l) -> un_uint b = Ok (adv b 4, z).
Proof.
  intros Hz H. unfold un_uint. rewrite (unpack_spec _ _ _ 4 H); [|apply enc_length|by eapply ne_len, enc_length].
  cbn [obind]. by rewrite dec_enc_uint.
Qed.
Lemma un_vec_spec b v l : each is_double v -> ahead b (enc_vec v ++ l) -> un_vec b = Ok (adv b 24, v).
Proof.
  intros Hz H. unfold un_vec. rewrite (unpack_spec _ _ _ 24 H); [|apply enc_vec_length|by eapply ne_len, enc_vec_length].
  cbn [obind]. by rewrite dec_enc_vec.
Qed.
Lemma un_ctx_spec b v l : each is_int v -> ahead b (enc_ctx v ++ l) -> un_ctx b = Ok (adv b 12, v).
Proof.
  intros Hz H. unfold un_ctx. rewrite (unpack_spec _ _ _ 12 H); [|apply enc_ctx_length|by eapply ne_len, enc_ctx_length].
  cbn [obind]. by rewrite dec_enc_ctx.
Qed.
Lemma ahead_int b z l : ahead b (enc_int z ++ l) -> ahead (adv b 4) l.
Proof. intros H. apply ahead_adv in H. by rewrite enc_int_length in H. Qed.
Lemma ahead_uint b z l : ahead b (enc 4 z ++ l) -> ahead (adv b 4) l.
Proof. intros H. apply ahead_adv in H. by rewrite enc_length in H. Qed.
Lemma ahead_vec b z l : ahead b (enc_vec z ++ l) -> ahead (adv b 24) l.
Proof. intros H. apply ahead_adv in H. by rewrite enc_vec_length in H. Qed.
Lemma ahead_ctx b z l : ahead b (enc_ctx z ++ l) -> ahead (adv b 12) l.
Proof. intros H. apply ahead_adv in H. by rewrite enc_ctx_length in H. Qed.

Lemma ints_length (l : list Z) : length (concat (map enc_int l)) = (4 * length l)%nat.
Proof. induction l as [|x l IH]; cbn [map concat length]; [done|]. rewrite app_length, enc_int_length, IH. lia. Qed.

Lemma un_mask_spec m : forall b m0 l, Forall is_int m -> NoDup (m0 ++ m) -> (length (m0 ++ m) <= 4)%nat ->
  ahead b (concat (map enc_int m) ++ l) -> un_mask (length m) b m0 = Ok (adv b (4 * length m), m0 ++ m).
Proof.
  induction m as [|x m IH]; intros b m0 l HF Hnd Hlen HA.
  - cbn. by rewrite adv_0, app_nil_r.
  - apply Forall_cons in HF as [Hx HF]. cbn [length un_mask]. cbn [map concat] in HA. rewrite <- app_assoc in HA.
    rewrite (un_int_spec _ _ _ Hx HA). cbn [obind]. unfold mask_append. rewrite app_length in Hlen. cbn in Hlen.
    rewrite bool_decide_eq_false_2 by lia. cbn [negb check obind].
    rewrite bool_decide_eq_false_2. 2:{ apply NoDup_app in Hnd as (_ & Hnd & _). intros Hin. apply (Hnd x Hin). left. }
    cbn [negb check obind]. apply ahead_int in HA.
    rewrite (IH _ (m0 ++ [x]) l HF); [|by rewrite <- app_assoc|rewrite !app_length; cbn [length]; lia|done].
    rewrite adv_adv, <- app_assoc. do 3 f_equal. lia.
Qed.

(** A codec: unpacking what was packed gives back the item and passes over its bytes. *)
Definition codec {T} (ok tok : T -> Prop) (words : T -> list (list Z)) (unpack : buffer -> T -> outcome (buffer * T)) (got : T -> T -> T) : Prop :=
  (forall x, ok x -> words x <> [] /\ Forall (fun w => w <> []) (words x)) /\
  forall b x t l, ok x -> tok t -> ahead b (concat (words x) ++ l) ->
    unpack b t = Ok (bf_decr (adv b (length (concat (words x)))), got x t).

Ltac nonempty := repeat (apply Forall_cons; split; [eapply ne_len; (apply enc_int_length || apply enc_vec_length || apply enc_ctx_length || apply enc_length)|]); try (by apply Forall_nil).
Lemma Forall_ints (l : list Z) : Forall (fun w => w <> []) (map enc_int l).
Proof. apply Forall_map, Forall_forall. intros x _. eapply ne_len, enc_int_length. Qed.

Lemma atom_codec h : codec atom_ok (fun _ => True) (atom_words h) (unpack_atom h) (got_atom h).
Proof.
  split.
  { intros a _. unfold atom_words. split; [done|]. rewrite !Forall_app. split; [nonempty|]. split; [destruct h; nonempty|].
    split; [nonempty|apply Forall_ints]. }
  intros b a t l [] _ HA. unfold unpack_atom.
  destruct ao_mask as (HM1 & HM2 & HM3).
  assert (Hm : is_int (Z.of_nat (length (aMask a)))) by (unfold is_int; lia).
  assert (HA' : ahead b (enc_int (aId a) ++ enc_int (aType a) ++ enc_vec (aPos a) ++ enc_vec (aVel a) ++ enc 4 (aFlags a) ++
     enc 4 (aGroups a) ++ (if h then enc_ctx (aCtx a) else []) ++ enc_int (Z.of_nat (length (aMask a))) ++ concat (map enc_int (aMask a)) ++ l)).
  { revert HA. unfold atom_words. rewrite !concat_app. cbn [concat]. rewrite !app_nil_r, <- !app_assoc. destruct h; cbn [concat]; by rewrite ?app_nil_r. }
  assert (HL : length (concat (atom_words h a)) = (68 + (if h then 12 else 0) + 4 * length (aMask a))%nat).
  { unfold atom_words. rewrite !concat_app, !app_length, ints_length. cbn [concat]. rewrite !app_length, !enc_int_length, !enc_vec_length, !enc_length.
    destruct h; cbn [concat]; rewrite ?app_length, ?enc_ctx_length; cbn [length]; lia. }
  rewrite HL. clear HA HL.
  rewrite (un_int_spec _ _ _ ao_id HA'). cbn [obind]. apply ahead_int in HA'.
  rewrite (un_int_spec _ _ _ ao_type HA'). cbn [obind]. apply ahead_int in HA'. rewrite adv_adv in *.
  rewrite (un_vec_spec _ _ _ ao_pos HA'). cbn [obind]. apply ahead_vec in HA'. rewrite adv_adv in *.
  rewrite (un_vec_spec _ _ _ ao_vel HA'). cbn [obind]. apply ahead_vec in HA'. rewrite adv_adv in *.
  rewrite (un_uint_spec _ _ _ ao_flags HA'). cbn [obind]. apply ahead_uint in HA'. rewrite adv_adv in *.
  rewrite (un_uint_spec _ _ _ ao_groups HA'). cbn [obind]. apply ahead_uint in HA'. rewrite adv_adv in *.
  destruct h.
  - rewrite (un_ctx_spec _ _ _ ao_ctx HA'). cbn [obind]. apply ahead_ctx in HA'. rewrite adv_adv in *.
    rewrite (un_int_spec _ _ _ Hm HA'). cbn [obind]. apply ahead_int in HA'. rewrite adv_adv in *. rewrite Nat2Z.id.
    rewrite (un_mask_spec _ _ [] l HM1 HM2 HM3 HA'). cbn [obind]. rewrite adv_adv. unfold got_atom. cbn [app].
    do 3 f_equal.
  - cbn [obind app] in *.
    rewrite (un_int_spec _ _ _ Hm HA'). cbn [obind]. apply ahead_int in HA'. rewrite adv_adv in *. rewrite Nat2Z.id.
    rewrite (un_mask_spec _ _ [] l HM1 HM2 HM3 HA'). cbn [obind]. rewrite adv_adv. unfold got_atom. cbn [app].
    do 3 f_equal.
Qed.
Lemma ghost_codec h : codec atom_ok (fun _ => True) (ghost_words h) (unpack_ghost h) (got_ghost h).
Proof.
  split.
  { intros a _. unfold ghost_words. split; [done|]. rewrite !Forall_app. split; [nonempty|]. destruct h; nonempty. }
  intros b a t l [] _ HA. unfold unpack_ghost.
  assert (HA' : ahead b (enc_int (aId a) ++ enc_int (aType a) ++ enc_vec (aPos a) ++ enc 4 (aFlags a) ++ (if h then enc_ctx (aCtx a) else []) ++ l)).
  { revert HA. unfold ghost_words. rewrite !concat_app. cbn [concat]. rewrite !app_nil_r, <- !app_assoc. destruct h; cbn [concat]; by rewrite ?app_nil_r. }
  assert (HL : length (concat (ghost_words h a)) = (36 + (if h then 12 else 0))%nat).
  { unfold ghost_words. rewrite !concat_app, !app_length. cbn [concat]. rewrite !app_length, !enc_int_length, !enc_vec_length, !enc_length.
    destruct h; cbn [concat]; rewrite ?app_length, ?enc_ctx_length; cbn [length]; lia. }
  rewrite HL. clear HA HL.
  rewrite (un_int_spec _ _ _ ao_id HA'). cbn [obind]. apply ahead_int in HA'.
  rewrite (un_int_spec _ _ _ ao_type HA'). cbn [obind]. apply ahead_int in HA'. rewrite adv_adv in *.
  rewrite (un_vec_spec _ _ _ ao_pos HA'). cbn [obind]. apply ahead_vec in HA'. rewrite adv_adv in *.
  rewrite (un_uint_spec _ _ _ ao_flags HA'). cbn [obind]. apply ahead_uint in HA'. rewrite adv_adv in *.
  destruct h; [|done].
  rewrite (un_ctx_spec _ _ _ ao_ctx HA'). cbn [obind]. rewrite adv_adv. done.
Qed.
Lemma update_codec : codec atom_ok (fun _ => True) update_words unpack_update got_update.
Proof.
  split; [intros a _; split; [done|unfold update_words; nonempty]|].
  intros b a t l [] _ HA. unfold unpack_update. unfold update_words in *. cbn [concat] in *. rewrite app_nil_r in *.
  rewrite (un_vec_spec _ _ _ ao_pos HA). cbn [obind]. by rewrite enc_vec_length.
Qed.
Lemma force_codec fadd : codec atom_ok (fun _ => True) force_words (unpack_force fadd) (got_force fadd).
Proof.
  split; [intros a _; split; [done|unfold force_words; nonempty]|].
  intros b a t l [] _ HA. unfold unpack_force. unfold force_words in *. cbn [concat] in *. rewrite app_nil_r in *.
  rewrite (un_vec_spec _ _ _ ao_force HA). cbn [obind]. by rewrite enc_vec_length.
Qed.

(** After [k] atoms of a group. *)
Lemma un_ids_spec (src : list Z) N : length src = N -> forall n k, (k + n = N)%nat -> forall b g l, Forall is_int src ->
  length (gAtoms g) = N -> length (gPtrs g) = N -> take k (gAtoms g) = take k src -> take k (gPtrs g) = replicate k None ->
  gNPtr g = Z.of_nat (length (filter (fun p => is_Some p) (gPtrs g))) ->
  ahead b (concat (map enc_int (drop k src)) ++ l) ->
  un_ids (seq k n) b g = Ok (adv b (4 * n), DG (gId g) (gType g) src (replicate N None) 0 (gFlags g)).
Proof.
  intros HN. induction n as [|n IH]; intros k Hk b g l HF L1 L2 T1 T2 HP HA.
  - cbn. rewrite adv_0. assert (k = N) as -> by lia. rewrite !take_ge in T1 by lia. rewrite take_ge in T2 by lia.
    destruct g as [gi gt ga gp np gf]. cbn in *. subst ga gp. do 3 f_equal. rewrite HP.
    assert (E : forall N, filter (fun p : option nat => is_Some p) (replicate N None) = []).
    { intros m. induction m as [|m IHm]; [done|]. cbn [replicate]. rewrite filter_cons_False; [done|]. by intros [? ?]. }
    by rewrite E.
  - destruct (lookup_lt_is_Some_2 src k ltac:(lia)) as [x Hx]. rewrite (drop_S _ _ _ Hx) in HA. cbn [map concat] in HA.
    rewrite <- app_assoc in HA. cbn [seq un_ids].
    assert (is_int x) as Hxi by (eapply Forall_lookup_1; done).
    rewrite (un_int_spec _ _ _ Hxi HA). cbn [obind]. apply ahead_int in HA.
    unfold aset at 1. rewrite decide_True by lia. cbn [obind].
    destruct (lookup_lt_is_Some_2 (gPtrs g) k ltac:(lia)) as [q Hq]. unfold aget. rewrite Hq. cbn [obind].
    assert (TA : take (S k) (<[k:=x]> (gAtoms g)) = take (S k) src).
    { rewrite (take_S_r (<[k:=x]> (gAtoms g)) k x) by (apply list_lookup_insert; lia).
      rewrite take_insert by lia. rewrite (take_S_r _ _ _ Hx). by rewrite T1. }
    assert (TP : forall l', l' !! k = Some None -> take k l' = take k (gPtrs g) -> take (S k) l' = replicate (S k) None).
    { intros l' H1 H2. rewrite (take_S_r _ _ _ H1), H2, T2. by rewrite <- replicate_S_end. }
    destruct q as [q|].
    + unfold aset. rewrite decide_True by lia. cbn [obind].
      rewrite (IH (S k) ltac:(lia) (adv b 4) (DG (gId g) (gType g) (<[k:=x]> (gAtoms g)) (<[k:=None]> (gPtrs g)) (gNPtr g - 1) (gFlags g)) l HF);
        cbn [gAtoms gPtrs gNPtr gId gType gFlags]; rewrite ?insert_length; try done.
      * rewrite adv_adv. do 3 f_equal. lia.
      * apply TP; [apply list_lookup_insert; lia|by rewrite take_insert by lia].
      * rewrite HP. rewrite insert_take_drop by lia. rewrite <- (take_drop_middle (gPtrs g) k (Some q) Hq) at 1.
        rewrite !filter_app, !app_length. rewrite filter_cons_True by (by eexists). rewrite filter_cons_False by (by intros [? ?]).
        cbn [length]. lia.
    + cbn [obind].
      rewrite (IH (S k) ltac:(lia) (adv b 4) (DG (gId g) (gType g) (<[k:=x]> (gAtoms g)) (gPtrs g) (gNPtr g) (gFlags g)) l HF);
        cbn [gAtoms gPtrs gNPtr gId gType gFlags]; rewrite ?insert_length; try done.
      * rewrite adv_adv. do 3 f_equal. lia.
      * by apply TP.
Qed.
Lemma group_codec N : codec (group_ok N) (group_ok N) group_words (unpack_group N) (got_group N).
Proof.
  split.
  { intros a _. unfold group_words. split; [done|]. rewrite !Forall_app. split; [nonempty|]. split; [apply Forall_ints|nonempty]. }
  intros b a t l [] [] HA. unfold unpack_group. destruct go_atoms as [HF HN], go_atoms0 as [_ HN0], go_ptrs0 as [HP0 HP1].
  assert (HA' : ahead b (enc_int (gId a) ++ enc_int (gType a) ++ concat (map enc_int (gAtoms a)) ++ enc 4 (gFlags a) ++ l)).
  { revert HA. unfold group_words. rewrite !concat_app. cbn [concat]. by rewrite !app_nil_r, <- !app_assoc. }
  assert (HL : length (concat (group_words a)) = (12 + 4 * N)%nat).
  { unfold group_words. rewrite !concat_app, !app_length, ints_length. cbn [concat]. rewrite !app_length, !enc_int_length, !enc_length. cbn [length]. lia. }
  rewrite HL. clear HA HL.
  rewrite (un_int_spec _ _ _ go_id HA'). cbn [obind]. apply ahead_int in HA'.
  rewrite (un_int_spec _ _ _ go_type HA'). cbn [obind]. apply ahead_int in HA'. rewrite adv_adv in *.
  rewrite (un_ids_spec (gAtoms a) N HN N 0 ltac:(lia) _ _ (enc 4 (gFlags a) ++ l)); try done.
  cbn [obind gFlags gId gType gAtoms gPtrs gNPtr]. rewrite adv_adv. apply ahead_adv in HA'. rewrite ints_length, HN, adv_adv in HA'.
  rewrite (un_uint_spec _ _ _ go_flags HA'). cbn [obind]. rewrite adv_adv. unfold got_group. do 3 f_equal. f_equal. lia.
Qed.

(** ** Blocks *)
Lemma recv_items_spec {T} (ok tok : T -> Prop) words unpack got : codec ok tok words unpack got -> forall xs ts b l,
  Forall ok xs -> Forall tok ts -> length xs = length ts -> ahead b (concat (concat (map words xs)) ++ l) ->
  exists b', recv_items unpack b ts = Ok (b', zip_with got xs ts) /\ bCap b' = bCap b /\ rMem b' = rMem b /\
    rPtr b' = (rPtr b + length (concat (concat (map words xs))))%nat /\ rEnd b' = rEnd b /\ rSize b' = rSize b - Z.of_nat (length xs) /\
    sPtr b' = sPtr b.
Proof.
  intros [HC1 HC2]. induction xs as [|x xs IH]; intros [|t ts] b l HX HT Hl HA; try done.
  - cbn. exists b. split; [done|]. do 2 (split; [done|]). split; [lia|]. split; [done|]. split; [lia|done].
  - apply Forall_cons in HX as [Hx HX]. apply Forall_cons in HT as [Ht HT]. cbn [map concat] in HA |- *.
    rewrite concat_app in *. rewrite <- app_assoc in HA. cbn [recv_items zip_with].
    rewrite (HC2 b x t _ Hx Ht HA). cbn [obind]. apply ahead_adv in HA.
    set (b1 := bf_decr (adv b (length (concat (words x))))).
    assert (HA1 : ahead b1 (concat (concat (map words xs)) ++ l)) by exact HA.
    destruct (IH ts b1 l HX HT ltac:(cbn in Hl; lia) HA1) as (b' & E & H1 & H2 & H3 & H4 & H5 & H6).
    rewrite E. cbn [obind]. exists b'. split; [done|]. split; [done|]. split; [done|].
    rewrite app_length. cbn [rPtr b1 bf_decr adv bf_recv rSize length rEnd sPtr] in *. split; [lia|]. split; [done|]. split; [lia|done].
Qed.

Lemma recv_block_spec {T} (ok tok : T -> Prop) words unpack got ty c xs ts b l : codec ok tok words unpack got ->
  Forall ok xs -> Forall tok ts -> length xs = length ts -> is_int ty -> rSize b = 0 -> Z.of_nat (bCap b) < 2 ^ 31 ->
  ahead b (image (BK ty c (map words xs)) ++ l) ->
  exists b', recv_block unpack b ts = Ok (b', (c, zip_with got xs ts)) /\ bCap b' = bCap b /\ rMem b' = rMem b /\
    rPtr b' = (rPtr b + length (image (BK ty c (map words xs))))%nat /\ rSize b' = 0.
Proof.
  intros HC HX HT Hl Hty Hs Hcap HA. set (k := BK ty c (map words xs)) in *.
  assert (EB : body k = concat (concat (map words xs))) by done.
  assert (HI : length (image k) = (16 + length (body k))%nat) by (unfold image; by rewrite app_length, head_length).
  pose proof HA as [HL [rest HD]]. assert (HDl := f_equal length HD). rewrite drop_length, !app_length, HI in HDl.
  assert (Hfit : (rPtr b + 16 + length (body k) <= bCap b)%nat) by lia.
  assert (Hn : (length xs <= length (body k))%nat).
  { rewrite EB. clear - HC HX. induction HX as [|x xs Hx _ IH]; [done|]. cbn [map concat length]. rewrite concat_app, app_length.
    destruct HC as [HC _]. destruct (HC x Hx) as [Hne HF]. destruct (words x) as [|w ws]; [done|].
    apply Forall_cons in HF as [Hw _]. cbn [concat]. rewrite app_length. destruct w; [done|]. cbn [length]. lia. }
  unfold recv_block, bf_beginRecv. rewrite Hs, bool_decide_eq_true_2 by done. cbn [check obind].
  rewrite decide_False by lia. cbn [obind].
  set (h0 := enc_int (Z.of_nat (length (kItems k)))). set (h1 := enc_int (16 + Z.of_nat (length (body k)))).
  set (h2 := enc_int ty). set (h3 := enc_int (if c then 1 else 0)).
  assert (HD' : drop (rPtr b) (rMem b) = h0 ++ h1 ++ h2 ++ h3 ++ (body k ++ l) ++ rest).
  { rewrite HD. unfold image, head. by rewrite <- !app_assoc. }
  assert (E0 : take 4 (drop (rPtr b + 4 * 0) (rMem b)) = h0) by (rewrite Nat.mul_0_r, Nat.add_0_r, HD'; by apply take_app_alt).
  assert (E1 : take 4 (drop (rPtr b + 4 * 1) (rMem b)) = h1).
  { rewrite <- drop_drop, HD'. rewrite (drop_app_alt h0) by done. by apply take_app_alt. }
  assert (E2 : take 4 (drop (rPtr b + 4 * 2) (rMem b)) = h2).
  { rewrite <- drop_drop, HD'. rewrite (app_assoc h0), (drop_app_alt (h0 ++ h1)) by done. by apply take_app_alt. }
  assert (E3 : take 4 (drop (rPtr b + 4 * 3) (rMem b)) = h3).
  { rewrite <- drop_drop, HD'. rewrite (app_assoc h0), (app_assoc (h0 ++ h1)), (drop_app_alt ((h0 ++ h1) ++ h2)) by done. by apply take_app_alt. }
  rewrite E0, E1, E2, E3. unfold h0, h1, h2, h3.
  rewrite !dec_enc_int; [|destruct c; unfold is_int; lia|done|unfold is_int; cbn [kItems k]; rewrite map_length; lia|unfold is_int; lia].
  replace (negb (bool_decide ((if c then 1 else 0) = 0))) with c by (by destruct c).
  set (b1 := bf_recv b (rMem b) (rPtr b + 16) (Z.of_nat (rPtr b) + (16 + Z.of_nat (length (body k)))) (Z.of_nat (length (kItems k))) ty).
  assert (HA1 : ahead b1 (concat (concat (map words xs)) ++ l)).
  { split; [done|]. exists rest. cbn. rewrite <- drop_drop, HD. unfold image. rewrite <- !app_assoc. rewrite drop_app_alt; [done|]. by rewrite head_length. }
  destruct (recv_items_spec ok tok words unpack got HC xs ts b1 l HX HT Hl HA1) as (b' & E & H1 & H2 & H3 & H4 & H5 & H6).
  rewrite E. cbn [obind]. unfold bf_endRecv. rewrite H3, H4, H5. cbn [rPtr rEnd rSize b1 bf_recv k kItems]. rewrite map_length.
  rewrite bool_decide_eq_true_2 by lia. cbn [check obind]. rewrite <- EB. rewrite bool_decide_eq_true_2 by lia. cbn [check obind].
  eexists. split; [done|]. cbn [bCap rMem rPtr rSize bf_recv]. rewrite H1, H2. split; [done|]. split; [done|]. split; [|done]. rewrite HI. lia.
Qed.

Lemma recv_content_spec h fadd c f t b l : fits c t -> rSize b = 0 -> Z.of_nat (bCap b) < 2 ^ 31 ->
  ahead b (image (block_of h c f) ++ l) ->
  exists b', recv_content h fadd b t = Ok (b', (f, got h fadd c t)) /\ bCap b' = bCap b /\ rMem b' = rMem b /\
    rPtr b' = (rPtr b + length (image (block_of h c f)))%nat /\ rSize b' = 0.
Proof.
  intros Hf Hs Hc HA. destruct c as [xs|xs|xs|xs|N xs], t as [ts|ts|ts|ts|N' ts]; try done; cbn [fits] in Hf; cbn [block_of] in HA |- *;
    cbn [recv_content got].
  - destruct Hf as [HF Hl]. edestruct (recv_block_spec _ _ _ _ _ 1 f xs ts b l (atom_codec h)) as (b' & E & H); [done|by apply Forall_true|done| |done|done|exact HA|].
    { unfold is_int; lia. } rewrite E. cbn [obind]. exists b'. done.
  - destruct Hf as [HF Hl]. edestruct (recv_block_spec _ _ _ _ _ 2 f xs ts b l (ghost_codec h)) as (b' & E & H); [done|by apply Forall_true|done| |done|done|exact HA|].
    { unfold is_int; lia. } rewrite E. cbn [obind]. exists b'. done.
  - destruct Hf as [HF Hl]. edestruct (recv_block_spec _ _ _ _ _ 3 f xs ts b l update_codec) as (b' & E & H); [done|by apply Forall_true|done| |done|done|exact HA|].
    { unfold is_int; lia. } rewrite E. cbn [obind]. exists b'. done.
  - destruct Hf as [HF Hl]. edestruct (recv_block_spec _ _ _ _ _ 4 f xs ts b l (force_codec fadd)) as (b' & E & H); [done|by apply Forall_true|done| |done|done|exact HA|].
    { unfold is_int; lia. } rewrite E. cbn [obind]. exists b'. done.
  - destruct Hf as (<- & HN & HF & HT & Hl). edestruct (recv_block_spec _ _ _ _ _ (Z.of_nat N + 3) f xs ts b l (group_codec N)) as (b' & E & H); [done|done|done|done|done|done|exact HA|].
    rewrite E. cbn [obind]. exists b'. done.
Qed.
Lemma block_items_ok h c f t : fits c t -> items_ok (block_of h c f).
Proof.
  intros H. unfold items_ok. destruct c as [xs|xs|xs|xs|N xs], t as [ts|ts|ts|ts|N' ts]; try done; cbn [fits] in H; cbn [block_of kItems];
    apply Forall_map; [destruct H as [H _]..|destruct H as (_ & _ & H & _)]; eapply Forall_impl; try exact H; intros x Hx.
  - by apply (atom_codec h). 
  - by apply (ghost_codec h).
  - by apply update_codec.
  - by apply (force_codec (fun x _ => x)).
  - by apply (group_codec N).
Qed.
