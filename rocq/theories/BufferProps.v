(** The buffer: what is sent is received; how much fits. *)
From Verif Require Import Base SpeciesModel SpeciesProofs BufferModel BufferSpec BufferProofs.
Local Open Scope Z_scope.

Lemma items_ok_content h c f : content_ok c -> items_ok (block_of h c f).
Proof.
  intros H. unfold items_ok. destruct c as [xs|xs|xs|xs|N xs]; cbn [content_ok] in H; cbn [block_of kItems];
    apply Forall_map; [..|destruct H as [_ H]]; eapply Forall_impl; try exact H; intros x Hx.
  - by apply (atom_codec h).
  - by apply (ghost_codec h).
  - by apply update_codec.
  - by apply (force_codec (fun x _ => x)).
  - by apply (group_codec N).
Qed.
Lemma body_const {T} (w : T -> list (list Z)) n l : Forall (fun x => length (concat (w x)) = n) l ->
  length (concat (concat (map w l))) = (n * length l)%nat.
Proof. induction 1 as [|x l Hx _ IH]; cbn [map concat length]; [lia|]. rewrite concat_app, app_length, Hx, IH. lia. Qed.
Lemma image_length h c f : content_ok c -> length (image (block_of h c f)) = wire_size h c.
Proof.
  intros HOK. unfold image. rewrite app_length, head_length. unfold wire_size. f_equal. unfold body.
  destruct c as [xs|xs|xs|xs|N xs]; cbn [block_of kItems].
  - clear HOK. induction xs as [|x xs IH]; cbn [map concat length sum_nat foldr]; [done|]. rewrite concat_app, app_length, IH. f_equal.
    unfold atom_words. rewrite !concat_app, !app_length, ints_length. cbn [concat].
    rewrite !app_length, !enc_int_length, !enc_vec_length, !enc_length.
    destruct h; cbn [concat]; rewrite ?app_length, ?enc_ctx_length; cbn [length]; lia.
  - apply body_const, Forall_forall. intros x _. unfold ghost_words. rewrite !concat_app, !app_length. cbn [concat].
    rewrite !app_length, !enc_int_length, !enc_vec_length, !enc_length.
    destruct h; cbn [concat]; rewrite ?app_length, ?enc_ctx_length; cbn [length]; lia.
  - apply body_const, Forall_forall. intros x _. unfold update_words. cbn [concat]. by rewrite app_nil_r, enc_vec_length.
  - apply body_const, Forall_forall. intros x _. unfold force_words. cbn [concat]. by rewrite app_nil_r, enc_vec_length.
  - destruct HOK as [_ HOK]. apply body_const. eapply Forall_impl; [exact HOK|]. intros x []. destruct go_atoms as [_ HN].
    unfold group_words. rewrite !concat_app, !app_length, ints_length, HN. cbn [concat].
    rewrite !app_length, !enc_int_length, !enc_length. cbn [length]. lia.
Qed.
Lemma items_empty h c f : kItems (block_of h c f) = [] <-> content_empty c.
Proof. destruct c as [[]|[]|[]|[]|N []]; cbn; split; done. Qed.
Lemma fits_ok c t : fits c t -> content_ok c.
Proof. by destruct c, t; cbn; intuition. Qed.

(** Everything that is packed into a message of any number of blocks arrives as it was packed, in the objects into which
    the receiver unpacks it, and the receiver consumes the message exactly. *)
Theorem buffer_roundtrip (h : bool) (fadd : Z -> Z -> Z) (s r : buffer) (cs : list (content * bool)) (ts : list content) (s' r' : buffer) :
  buffer_state h s -> buffer_state h r -> rSize r = 0 -> Forall2 (fun c t => fits c.1 t) cs ts ->
  send_message s (map (fun c => block_of h c.1 c.2) cs) = Ok s' -> bf_transfer s' r = Ok r' ->
  exists r'', recv_message h fadd r' ts = Ok (r'', zip_with (fun c t => (c.2, got h fadd c.1 t)) cs ts) /\
    Some (rPtr r'') = sPtr s' /\ rSize r'' = 0 /\
    sPtr s' = Some (sum_nat (map (fun c => wire_size h c.1) cs)).
Proof.
  intros Hs Hr Hr0 HF Hsend Htr. apply bwf_state in Hs, Hr. unfold send_message in Hsend.
  set (ks := map (fun c => block_of h c.1 c.2) cs) in *.
  assert (HOK : Forall items_ok ks).
  { unfold ks. apply Forall_map. clear -HF. induction HF as [|c t cs ts Hct _ IH]; constructor; [|done]. by eapply block_items_ok. }
  destruct (send_message_Ok ks (bf_clear s) 0%nat s' eq_refl eq_refl (wf_s _ _ Hs) ltac:(lia) HOK Hsend)
    as (Hp & Hle & Hcap & Hlen & _ & Htake & _). cbn [Nat.add bCap bf_clear bf_send] in *.
  unfold bf_transfer in Htr. rewrite Hp in Htr. destruct (decide _) as [|Hsc] in Htr; [done|]. destruct (decide _) as [|Hrc] in Htr; [done|].
  injection Htr as <-. rewrite Htake. cbn [take app]. set (n := length (concat (map image ks))) in *.
  set (r1 := bf_recv r _ 0 _ _ _).
  assert (HW : n = sum_nat (map (fun c => wire_size h c.1) cs)).
  { unfold n, ks. clear - HF. induction HF as [|c t cs ts Hct _ IH]; [done|]. cbn [map concat sum_nat foldr]. rewrite app_length.
    rewrite image_length by (by eapply fits_ok). unfold sum_nat in IH. by rewrite IH. }
  assert (HA : ahead r1 (concat (map image ks) ++ [])).
  { split; cbn [rMem bCap rPtr r1 bf_recv drop].
    - rewrite app_length, drop_length, (wf_r _ _ Hr). rewrite take_0. cbn [app]. fold n. lia.
    - exists (drop n (rMem r)). by rewrite take_0, app_nil_r. }
  assert (HC : Z.of_nat (bCap r1) < 2 ^ 31) by (apply Hr).
  assert (HG : exists r'', recv_message h fadd r1 ts = Ok (r'', zip_with (fun c t => (c.2, got h fadd c.1 t)) cs ts) /\
      rPtr r'' = (rPtr r1 + length (concat (map image (map (fun c => block_of h c.1 c.2) cs))))%nat /\ rSize r'' = 0).
  { assert (HS0 : rSize r1 = 0) by done. unfold ks in HA.
    clearbody r1. clear - HF HA HC HS0. revert r1 HA HC HS0. induction HF as [|c t cs ts Hct _ IH]; intros r1 HA HC HS0; cbn [map concat recv_message zip_with].
    { exists r1. split; [done|]. split; [cbn; lia|done]. }
    cbn [map concat] in HA. rewrite <- app_assoc in HA.
    destruct (recv_content_spec h fadd c.1 c.2 t r1 _ Hct HS0 HC HA) as (r2 & E & H1 & H2 & H3 & H4).
    rewrite E. cbn [obind]. apply ahead_adv in HA.
    destruct (IH r2) as (r'' & E' & H5 & H6).
    { destruct HA as [HA1 [rest HA2]]. split; [rewrite H2, H1; exact HA1|]. exists rest. rewrite H2, H3. exact HA2. }
    { by rewrite H1. } { done. }
    rewrite E'. cbn [obind]. exists r''. split; [done|]. rewrite H5, H3, app_length. split; [lia|done]. }
  destruct HG as (r'' & E & H1 & H2). exists r''. split; [done|]. split; [|split; [done|]].
  - rewrite H1, Hp. done.
  - by rewrite Hp, HW.
Qed.
Print Assumptions buffer_roundtrip.

(** If the sizes of the blocks fit, nothing fails: the message is sent, transferred and received. *)
Theorem buffer_roundtrip_total (h : bool) (fadd : Z -> Z -> Z) (s r : buffer) (cs : list (content * bool)) (ts : list content) :
  buffer_state h s -> buffer_state h r -> rSize r = 0 -> Forall2 (fun c t => fits c.1 t) cs ts ->
  (sum_nat (map (fun c => wire_size h c.1) cs) <= bCap s)%nat -> (sum_nat (map (fun c => wire_size h c.1) cs) <= bCap r)%nat ->
  exists s' r' r'', send_message s (map (fun c => block_of h c.1 c.2) cs) = Ok s' /\ bf_transfer s' r = Ok r' /\
    recv_message h fadd r' ts = Ok (r'', zip_with (fun c t => (c.2, got h fadd c.1 t)) cs ts).
Proof.
  intros Hs Hr Hr0 HF Hfs Hfr.
  assert (HT : exists s', send_message s (map (fun c => block_of h c.1 c.2) cs) = Ok s').
  { unfold send_message. pose proof (wf_s _ _ (bwf_state _ _ Hs)) as Hl.
    assert (G : forall cs ts b p, Forall2 (fun c t => fits c.1 t) cs ts -> sPtr b = Some p -> sSize b = 0 -> length (sMem b) = bCap b ->
       (p + sum_nat (map (fun c : content * bool => wire_size h c.1) cs) <= bCap b)%nat ->
       exists s', foldM send_block b (map (fun c => block_of h c.1 c.2) cs) = Ok s').
    { clear. induction cs as [|c cs IH]; intros ts b p HF Hp Hs Hl Hle; [by eexists|].
      inversion HF as [|? t ? ts' Hct HF']; subst. cbn [map foldM] in *.
      assert (HE : forall x l, sum_nat (x :: l) = (x + sum_nat l)%nat) by done. rewrite HE in Hle.
      pose proof (image_length h c.1 c.2 (fits_ok _ _ Hct)) as HI.
      destruct (send_block_spec b p (block_of h c.1 c.2) Hp Hs Hl ltac:(lia) (block_items_ok _ _ _ _ Hct)) as [[_ (b' & E & HR & H1 & H2 & H3 & H4 & H5)]|[Hlt _]]; [|lia].
      rewrite E. cbn [obind]. destruct HR as (C1 & _). eapply (IH ts' b' _ HF' H1 H3); [congruence|]. rewrite C1, HI. lia. }
    eapply (G cs ts (bf_clear s) 0%nat HF); [done..|]. exact Hfs. }
  destruct HT as [s' E]. exists s'.
  assert (HOK : Forall items_ok (map (fun c => block_of h c.1 c.2) cs)).
  { apply Forall_map. clear -HF. induction HF as [|c t cs ts Hct _ IH]; constructor; [|done]. by eapply block_items_ok. }
  destruct (send_message_Ok _ (bf_clear s) 0%nat s' eq_refl eq_refl (wf_s _ _ (bwf_state _ _ Hs)) ltac:(lia) HOK E)
    as (Hp & Hle & Hcap & Hlen & _).
  assert (HT : exists r', bf_transfer s' r = Ok r').
  { unfold bf_transfer. rewrite Hp. cbn [bCap bf_clear bf_send] in *.
    assert (HW : length (concat (map image (map (fun c => block_of h c.1 c.2) cs))) = sum_nat (map (fun c => wire_size h c.1) cs)).
    { clear - HF. induction HF as [|c t cs ts Hct _ IH]; [done|]. cbn [map concat sum_nat foldr]. rewrite app_length.
      rewrite image_length by (by eapply fits_ok). unfold sum_nat in IH. by rewrite IH. }
    rewrite decide_False by lia. rewrite decide_False by lia. by eexists. }
  destruct HT as [r' Htr]. destruct (buffer_roundtrip h fadd s r cs ts s' r' Hs Hr Hr0 HF E Htr) as (r'' & E' & _).
  by exists r', r''.
Qed.
Print Assumptions buffer_roundtrip_total.

(** ** How much fits *)
(** One block in a cleared buffer: it is sent if and only if its size is at most the capacity (data capacity + 15, one byte
    less than the header and the data); otherwise there is an exception. *)
Theorem one_block_exact (h : bool) (s : buffer) (c : content) (f : bool) : buffer_state h s -> content_ok c ->
  (Z.of_nat (wire_size h c) <= bData s + 15 <-> is_ok (send_message s [block_of h c f])) /\
  (bData s + 15 < Z.of_nat (wire_size h c) <-> send_message s [block_of h c f] = Throw).
Proof.
  intros Hs HOK. apply bwf_state in Hs. pose proof (image_length h c f HOK) as HI. pose proof (wf_data _ _ Hs) as HD. pose proof (wf_d0 _ _ Hs).
  unfold send_message. cbn [foldM].
  destruct (send_block_spec (bf_clear s) 0 (block_of h c f) eq_refl eq_refl (wf_s _ _ Hs) ltac:(lia) (items_ok_content h c f HOK))
    as [[Hle (b' & E & _)]|[Hlt Hor]]; cbn [bCap bf_clear bf_send] in *.
  - rewrite E. cbn [obind]. split; split; intros; try done; try lia. by eexists.
  - destruct Hor as [[_ E]|[E0 _]].
    + rewrite E. cbn [obind]. split; split; intros HH; try done; try lia. by destruct HH.
    + apply items_empty in E0. assert (wire_size h c = 16%nat).
      { destruct c as [[]|[]|[]|[]|N []]; try done; unfold wire_size; cbn; lia. } lia.
Qed.
Print Assumptions one_block_exact.

Lemma sum_le (l : list datom) (g : datom -> nat) n : Forall (fun a => (g a <= n)%nat) l -> (sum_nat (map g l) <= n * length l)%nat.
Proof. induction 1; cbn [map sum_nat foldr length]; [lia|]. unfold sum_nat in *. lia. Qed.
Lemma sum_eq (l : list datom) (g : datom -> nat) n : Forall (fun a => g a = n) l -> sum_nat (map g l) = (n * length l)%nat.
Proof. induction 1; cbn [map sum_nat foldr length]; [lia|]. unfold sum_nat in *. lia. Qed.

(** One item fewer than advertised is always accepted. *)
Theorem capacity_minus_one_partial (h : bool) (s : buffer) (f : bool) : buffer_state h s ->
  (forall l, Forall atom_ok l -> Z.of_nat (length l) < bAtomCap s -> is_ok (send_message s [block_of h (CAtoms l) f])) /\
  (forall l, Forall atom_ok l -> Z.of_nat (length l) < bGhostCap s -> is_ok (send_message s [block_of h (CGhosts l) f])) /\
  (forall N l, is_int (Z.of_nat N + 3) -> Forall (group_ok N) l -> Z.of_nat (length l) < bData s / group_size N ->
     is_ok (send_message s [block_of h (CGroups N l) f])).
Proof.
  intros Hs. pose proof (bwf_state _ _ Hs) as HW. destruct (wf_caps _ _ HW) as (A0 & A1 & G0 & G1).
  split; [|split].
  - intros l HF Hl. apply one_block_exact; [done|done|]. unfold wire_size.
    pose proof (sum_le l (fun a => (if h then 80 else 68) + 4 * length (aMask a))%nat (if h then 96 else 84)) as HS.
    feed specialize HS. { eapply Forall_impl; [exact HF|]. intros a []. cbn beta. destruct h; lia. }
    unfold atom_size in A1. destruct h; nia.
  - intros l HF Hl. apply one_block_exact; [done|done|]. unfold wire_size. unfold ghost_size in G1. destruct h; nia.
  - intros N l HN HF Hl. apply one_block_exact; [done|done|]. unfold wire_size.
    assert (HG : group_size N * (bData s / group_size N) <= bData s) by (apply Z.mul_div_le; unfold group_size; lia).
    unfold group_size in *. nia.
Qed.
Print Assumptions capacity_minus_one_partial.

(** The advertised number itself is not: for every buffer, a block of atomCapacity() atoms with full masks throws, or a
    block of ghostCapacity() ghosts does. *)
Theorem capacity_refuted (h : bool) (s : buffer) (f : bool) : buffer_state h s ->
  (forall l, Forall atom_ok l -> Forall (fun a => length (aMask a) = 4%nat) l -> Z.of_nat (length l) = bAtomCap s ->
     send_message s [block_of h (CAtoms l) f] = Throw) \/
  (forall l, Forall atom_ok l -> Z.of_nat (length l) = bGhostCap s -> send_message s [block_of h (CGhosts l) f] = Throw).
Proof.
  intros Hs. pose proof (bwf_state _ _ Hs) as HW. destruct (wf_tight _ _ HW) as [HT|HT]; [left|right].
  - intros l HF HM Hl. apply one_block_exact; [done|done|]. unfold wire_size.
    pose proof (sum_eq l (fun a => (if h then 80 else 68) + 4 * length (aMask a))%nat (if h then 96 else 84)) as HS.
    feed specialize HS. { eapply Forall_impl; [exact HM|]. intros a Ha. cbn beta in *. rewrite Ha. by destruct h. }
    unfold atom_size in HT. destruct h; nia.
  - intros l HF Hl. apply one_block_exact; [done|done|]. unfold wire_size. unfold ghost_size in HT. destruct h; nia.
Qed.
Print Assumptions capacity_refuted.

(** ** No overrun *)
(** [pack] writes inside the buffer only, in any state. *)
Theorem pack_inside (h : bool) (s s' : buffer) (bs : list Z) : buffer_state h s -> bf_pack s bs = Ok s' ->
  exists p, sPtr s = Some p /\ (p + length bs <= length (sMem s))%nat /\ length (sMem s') = length (sMem s) /\
  forall i, (i < p \/ p + length bs <= i)%nat -> sMem s' !! i = sMem s !! i.
Proof.
  intros Hs H. apply bwf_state in Hs. unfold bf_pack in H. destruct (sPtr s) as [p|]; [|done]. destruct (decide _); [done|].
  injection H as <-. exists p. split; [done|]. rewrite (wf_s _ _ Hs). cbn [sMem bf_send].
  assert (Hle : (p + length bs <= length (sMem s))%nat) by (rewrite (wf_s _ _ Hs); lia).
  split; [lia|]. rewrite write_length by done. split; [apply Hs|]. intros i Hi. unfold write.
  destruct Hi as [Hi|Hi].
  - rewrite lookup_app_l by (rewrite take_length; lia). by rewrite lookup_take by lia.
  - rewrite lookup_app_r by (rewrite take_length; lia). rewrite take_length, Nat.min_l by lia.
    rewrite lookup_app_r by lia. rewrite lookup_drop. f_equal. lia.
Qed.
Print Assumptions pack_inside.

(** A message without empty blocks never overruns the buffer: it is sent or there is an exception. *)
Theorem no_overrun_partial (h : bool) (s : buffer) (cs : list (content * bool)) : buffer_state h s ->
  Forall (fun c => content_ok c.1 /\ ~ content_empty c.1) cs ->
  send_message s (map (fun c => block_of h c.1 c.2) cs) <> UB.
Proof.
  intros Hs HF. apply bwf_state in Hs. unfold send_message. 
  assert (G : forall cs b p, Forall (fun c : content * bool => content_ok c.1 /\ ~ content_empty c.1) cs -> sPtr b = Some p -> sSize b = 0 ->
     length (sMem b) = bCap b -> (p <= bCap b)%nat -> foldM send_block b (map (fun c => block_of h c.1 c.2) cs) <> UB).
  { clear. induction cs as [|c cs IH]; intros b p HF Hp Hs Hl Hle; [done|]. apply Forall_cons in HF as [[HOK Hne] HF]. cbn [map foldM].
    destruct (send_block_spec b p (block_of h c.1 c.2) Hp Hs Hl ltac:(lia) (items_ok_content _ _ _ HOK))
      as [[Hfit (b' & E & HR & H1 & H2 & H3 & H4 & H5)]|[Hlt [[_ E]|[E0 _]]]].
    - rewrite E. cbn [obind]. destruct HR as (C1 & _). eapply (IH b' _ HF H1 H3); [congruence|]. rewrite C1. lia.
    - rewrite E. done.
    - apply items_empty in E0. done. }
  eapply (G cs (bf_clear s) 0%nat HF); [done|done|apply Hs|lia].
Qed.
Print Assumptions no_overrun_partial.

(** With an empty block, it does: after two atoms that leave three bytes, the header of an empty block of bonds is written
    outside the buffer. *)
Definition ex_atom (k : Z) (m : list Z) : datom := DA k 0 (1, 2, 3) (4, 5, 6) 7 8 (0, 0, 0) m (9, 10, 11).
Lemma ex_atom_ok k m : is_int k -> Forall is_int m -> NoDup m -> (length m <= 4)%nat -> atom_ok (ex_atom k m).
Proof. intros. split; try done; unfold is_int, is_double, is_uint, each; cbn; lia. Qed.
Ltac ex_atoms := repeat (apply Forall_cons; split; [apply ex_atom_ok; [unfold is_int; lia|repeat constructor; unfold is_int; lia|by apply (bool_decide_unpack _); vm_compute|cbn; lia]|]); constructor.
Definition ex_buf : outcome buffer := bf_allocate false 2 1 (fun _ => 0) (fun _ => 0).
Theorem overrun_refuted : exists s cs, buffer_state false s /\ Forall (fun c => content_ok c.1) cs /\
  bAtomCap s = 2 /\ map fst cs = [CAtoms [ex_atom 5 [1; 2; 3; 4]; ex_atom 6 [1; 2; 3]]; CGroups 2 []] /\
  send_message s (map (fun c => block_of false c.1 c.2) cs) = UB.
Proof.
  destruct ex_buf as [s| |] eqn:E; [|done..]. exists s, [(CAtoms [ex_atom 5 [1; 2; 3; 4]; ex_atom 6 [1; 2; 3]], true); (CGroups 2 [], true)].
  split; [by eapply BS_allocate|]. vm_compute in E. injection E as <-. split.
  { apply Forall_cons. split; [cbn [fst content_ok]; ex_atoms|]. apply Forall_cons. split; [|done]. split; [done|]. constructor. }
  split; [done|]. split; [done|]. vm_compute. done.
Qed.
Print Assumptions overrun_refuted.

(** ** Examples *)
(** Two messages of two blocks through the same buffers: atoms and bonds, then ghosts alone. *)
Definition ex_group (k : Z) : dgroup := DG k 1 [5; 6] [Some 3%nat; None] 1 3.
Example ex_roundtrip : (let? s := bf_allocate true 3 4 (fun _ => 0) (fun _ => 0) in
  let? s1 := send_message s [block_of true (CAtoms [ex_atom 5 [1; -2]; ex_atom 6 []]) false; block_of true (CGroups 2 [ex_group 77]) true] in
  let? r := bf_transfer s1 s in
  let? (r, l) := recv_message true (fun x _ => x) r [CAtoms [ex_atom 50 [9]; ex_atom 60 []]; CGroups 2 [ex_group 0]] in
  let? s2 := send_message s1 [block_of true (CGhosts [ex_atom 8 [1]]) true] in
  let? r := bf_transfer s2 r in
  let? (r, l') := recv_message true (fun x _ => x) r [CGhosts [ex_atom 0 []]] in
  Ok (rPtr r, l ++ l')) =
  Ok (64%nat, [(false, CAtoms [ex_atom 5 [1; -2]; ex_atom 6 []]); (true, CGroups 2 [DG 77 1 [5; 6] [None; None] 0 3]); (true, CGhosts [ex_atom 8 []])]).
Proof. vm_compute. done. Qed.
(** The hypotheses of the theorems hold for it. *)
Example ex_hyps : fits (CAtoms [ex_atom 5 [1; -2]; ex_atom 6 []]) (CAtoms [ex_atom 50 [9]; ex_atom 60 []]) /\ fits (CGroups 2 [ex_group 77]) (CGroups 2 [ex_group 0]) /\
  exists s, bf_allocate true 3 4 (fun _ => 0) (fun _ => 0) = Ok s /\ buffer_state true s /\ rSize s = 0 /\ bAtomCap s = 3 /\ bGhostCap s = 6.
Proof.
  split; [|split].
  - split; [|done]. ex_atoms.
  - split; [done|]. split; [done|]. repeat split; repeat constructor; cbn; unfold is_int, is_uint; lia.
  - eexists. split; [by vm_compute|]. split; [|by vm_compute]. eapply (BS_allocate true 3 4 (fun _ => 0) (fun _ => 0)). by vm_compute.
Qed.
(** Three full atoms do not fit in a buffer made for three, two do. *)
Example ex_capacity : let full k := ex_atom k [10; 11; 12; 13] in
  (let? s := bf_allocate false 3 4 (fun _ => 0) (fun _ => 0) in send_message s [block_of false (CAtoms [full 1; full 2; full 3]) true]) = Throw /\
  is_ok (let? s := bf_allocate false 3 4 (fun _ => 0) (fun _ => 0) in send_message s [block_of false (CAtoms [full 1; full 2]) true]).
Proof. split; [by vm_compute|]. eexists. by vm_compute. Qed.
