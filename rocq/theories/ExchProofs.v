(** Proofs about the exchange of atoms: lists of atoms tagged with ranks, and one round. *)
From Verif Require Import Base Containers Vec3 PlanModel DomainModel DomainSpec DomainProofs DomainProps SpeciesModel SpeciesProofs SimProofs DistSpec ExchModel ExchSpec.
From Coq Require Import Reals Lra.
Local Open Scope nat_scope.

(** ** Lists *)
Lemma flat_map_Perm {A B} (f : A -> list B) l k : l ≡ₚ k -> flat_map f l ≡ₚ flat_map f k.
Proof. induction 1; cbn; [done|by rewrite IHPermutation| |by etransitivity]. rewrite !app_assoc. by rewrite (Permutation_app_comm (f y)). Qed.
Lemma flat_map_ext_Perm {A B} (f g : A -> list B) l : (forall x, x ∈ l -> f x ≡ₚ g x) -> flat_map f l ≡ₚ flat_map g l.
Proof. induction l as [|x l IH]; intros H; cbn; [done|]. rewrite H by (by left). rewrite IH; [done|]. intros y Hy. apply H. by right. Qed.
Lemma flat_map_ext_in {A B} (f g : A -> list B) l : (forall x, x ∈ l -> f x = g x) -> flat_map f l = flat_map g l.
Proof. induction l as [|x l IH]; intros H; cbn; [done|]. rewrite H by (by left). rewrite IH; [done|]. intros y Hy. apply H. by right. Qed.
Lemma flat_map_app_Perm {A B} (f g : A -> list B) l : flat_map (fun x => f x ++ g x) l ≡ₚ flat_map f l ++ flat_map g l.
Proof.
  induction l as [|x l IH]; cbn; [done|]. rewrite IH, <- !app_assoc. apply Permutation_app_head.
  rewrite !app_assoc. apply Permutation_app_tail. apply Permutation_app_comm.
Qed.
Lemma flat_map_map {A B C} (f : B -> list C) (g : A -> B) l : flat_map f (map g l) = flat_map (fun x => f (g x)) l.
Proof. induction l as [|x l IH]; cbn; [done|]. by rewrite IH. Qed.
Lemma map_flat_map {A B C} (f : B -> C) (g : A -> list B) l : map f (flat_map g l) = flat_map (fun x => map f (g x)) l.
Proof. induction l as [|x l IH]; cbn; [done|]. by rewrite map_app, IH. Qed.
Lemma flat_map_flat_map {A B C} (f : B -> list C) (g : A -> list B) l : flat_map f (flat_map g l) = flat_map (fun x => flat_map f (g x)) l.
Proof. induction l as [|x l IH]; cbn; [done|]. by rewrite flat_map_app, IH. Qed.
Lemma filter_flat_map {A B} (f : B -> bool) (g : A -> list B) l : List.filter f (flat_map g l) = flat_map (fun x => List.filter f (g x)) l.
Proof. induction l as [|x l IH]; cbn; [done|]. by rewrite List.filter_app, IH. Qed.
Lemma filter_map_comm {A B} (f : B -> bool) (g : A -> B) l : List.filter f (map g l) = map g (List.filter (fun x => f (g x)) l).
Proof. induction l as [|x l IH]; cbn; [done|]. destruct (f (g x)); cbn; by rewrite IH. Qed.
Lemma filter_ext_in' {A} (f g : A -> bool) l : (forall x, x ∈ l -> f x = g x) -> List.filter f l = List.filter g l.
Proof. intros H. apply List.filter_ext_in. intros x Hx. apply H. by apply elem_of_list_In. Qed.
Lemma filter_filter {A} (f g : A -> bool) l : List.filter f (List.filter g l) = List.filter (fun x => g x && f x) l.
Proof. induction l as [|x l IH]; cbn; [done|]. destruct (g x); cbn; [destruct (f x)|]; by rewrite IH. Qed.
Lemma map_split {A B} (f : A -> bool) (g h : A -> B) l :
  map g (List.filter (fun x => negb (f x)) l) ++ map h (List.filter f l) ≡ₚ map (fun x => if f x then h x else g x) l.
Proof.
  induction l as [|x l IH]; cbn; [done|]. destruct (f x); cbn.
  - rewrite <- Permutation_middle. by constructor.
  - by constructor.
Qed.
Lemma elem_of_map {A B} (f : A -> B) l y : y ∈ map f l <-> exists x, y = f x /\ x ∈ l.
Proof. apply elem_of_list_fmap. Qed.
Lemma elem_of_filter_b {A} (f : A -> bool) l x : x ∈ List.filter f l <-> x ∈ l /\ f x = true.
Proof. rewrite !elem_of_list_In. apply filter_In. Qed.
Lemma elem_of_flat_map {A B} (f : A -> list B) l y : y ∈ flat_map f l <-> exists x, x ∈ l /\ y ∈ f x.
Proof. rewrite elem_of_list_In, in_flat_map. setoid_rewrite elem_of_list_In. done. Qed.
Lemma NoDup_filter_b {A} (f : A -> bool) l : NoDup l -> NoDup (List.filter f l).
Proof.
  induction 1 as [|x l Hx Hl IH]; cbn; [constructor|]. destruct (f x); [|done]. constructor; [|done]. intros H. apply elem_of_filter_b in H as [? _]. done.
Qed.
Lemma Forall_filter_b {A} (P : A -> Prop) (f : A -> bool) l : Forall P l -> Forall P (List.filter f l).
Proof. rewrite !Forall_forall. intros H x Hx. apply elem_of_filter_b in Hx as [? _]. auto. Qed.
Lemma map_ext_elem {A B} (f g : A -> B) l : (forall x, x ∈ l -> f x = g x) -> map f l = map g l.
Proof. intros H. apply map_ext_in. intros x Hx. apply H. by apply elem_of_list_In. Qed.
Lemma inj_seq_Perm (f : nat -> nat) n : (forall r, r < n -> f r < n) -> (forall r r', r < n -> r' < n -> f r = f r' -> r = r') ->
  map f (seq 0 n) ≡ₚ seq 0 n.
Proof.
  intros Hb Hi. apply NoDup_Permutation_bis.
  - apply NoDup_ListNoDup. apply NoDup_fmap_2_strong; [|apply NoDup_seq].
    intros x y Hx Hy. apply elem_of_seq in Hx, Hy. apply Hi; lia.
  - rewrite map_length. done.
  - intros x Hx. apply in_map_iff in Hx as (y & <- & Hy). apply in_seq in Hy. apply in_seq. specialize (Hb y). lia.
Qed.

Lemma mapO_Ok {A B} (f : A -> outcome B) l k : mapO f l = Ok k <-> Forall2 (fun x y => f x = Ok y) l k.
Proof.
  split.
  - revert k. induction l as [|x l IH]; intros k; cbn; [intros [= <-]; constructor|].
    destruct (f x) eqn:E; cbn; try done. destruct (mapO f l) eqn:E'; cbn; try done. intros [= <-]. constructor; [done|]. by apply IH.
  - induction 1 as [|x y l k Hx H IH]; cbn; [done|]. rewrite Hx. cbn. by rewrite IH.
Qed.

(** ** Neighbours *)
Section grid.
  Context (dims : vec3 Z) (Hd : grid_ok dims).
  Notation n := (n_proc dims).
  Definition coords (r : nat) : vec3 Z := grid_position dims (Z.of_nat r).
  Definition dst (i j r : nat) : nat := Z.to_nat (grid_rank dims (nbr dims (coords r) i (step_of j))).
  Definition src (i j r : nat) : nat := Z.to_nat (grid_rank dims (nbr dims (coords r) i (- step_of j))).
  Definition shf (i j r : nat) : Z := ((vget (coords r) i - step_of j) / vget dims i)%Z.

  Lemma rank_lt r : r < n <-> (0 <= Z.of_nat r < grid_size dims)%Z.
  Proof. unfold n_proc. assert (0 < grid_size dims)%Z by (destruct Hd as (?&?&?); unfold grid_size; nia). lia. Qed.
  Lemma coords_in r : r < n -> in_grid dims (coords r).
  Proof. intros H. apply position_in_grid; [done|]. by apply rank_lt. Qed.
  Lemma of_rank p : in_grid dims p -> Z.to_nat (grid_rank dims p) < n /\ coords (Z.to_nat (grid_rank dims p)) = p.
  Proof.
    intros Hp. pose proof (rank_range _ _ Hd Hp). split; [apply rank_lt; lia|]. unfold coords. rewrite Z2Nat.id by lia. by apply position_rank.
  Qed.
  Lemma coords_inj r r' : r < n -> r' < n -> coords r = coords r' -> r = r'.
  Proof. intros H H' E. apply Nat2Z.inj. rewrite <- (rank_position dims (Z.of_nat r)), <- (rank_position dims (Z.of_nat r')) by done. unfold coords in E. by rewrite E. Qed.
  Lemma dst_lt i j r : i < 3 -> r < n -> dst i j r < n.
  Proof. intros Hi Hr. apply of_rank. apply nbr_in_grid; [done| |done]. by apply coords_in. Qed.
  Lemma src_lt i j r : i < 3 -> r < n -> src i j r < n.
  Proof. intros Hi Hr. apply of_rank. apply nbr_in_grid; [done| |done]. by apply coords_in. Qed.
  Lemma coords_dst i j r : i < 3 -> r < n -> coords (dst i j r) = nbr dims (coords r) i (step_of j).
  Proof. intros Hi Hr. apply of_rank. apply nbr_in_grid; [done| |done]. by apply coords_in. Qed.
  Lemma coords_src i j r : i < 3 -> r < n -> coords (src i j r) = nbr dims (coords r) i (- step_of j).
  Proof. intros Hi Hr. apply of_rank. apply nbr_in_grid; [done| |done]. by apply coords_in. Qed.
  Lemma src_dst i j r : i < 3 -> r < n -> src i j (dst i j r) = r.
  Proof.
    intros Hi Hr. apply coords_inj; [apply src_lt; [done|]; by apply dst_lt|done|].
    rewrite coords_src, coords_dst by (try done; by apply dst_lt). apply nbr_nbr; [done| |done]. by apply coords_in.
  Qed.
  Lemma dst_src i j r : i < 3 -> r < n -> dst i j (src i j r) = r.
  Proof.
    intros Hi Hr. apply coords_inj; [apply dst_lt; [done|]; by apply src_lt|done|].
    rewrite coords_dst, coords_src by (try done; by apply src_lt).
    pose proof (nbr_nbr dims (coords r) i (- step_of j) Hd (coords_in _ Hr) Hi) as H. by rewrite Z.opp_involutive in H.
  Qed.
  Lemma dst_perm i j : i < 3 -> map (dst i j) (seq 0 n) ≡ₚ seq 0 n.
  Proof.
    intros Hi. apply inj_seq_Perm; [intros; by apply dst_lt|]. intros r r' Hr Hr' E. rewrite <- (src_dst i j r), <- (src_dst i j r') by done. by rewrite E.
  Qed.
  Lemma nbr_one p i k : in_grid dims p -> vget dims i = 1%Z -> i < 3 -> nbr dims p i k = p.
  Proof.
    intros Hp H1 Hi. unfold nbr. rewrite H1, Z.mod_1_r. pose proof (in_grid_get _ _ i Hp). replace 0%Z with (vget p i) by lia. apply vset_id.
  Qed.
  Lemma dst_one i j r : i < 3 -> r < n -> vget dims i = 1%Z -> dst i j r = r /\ src i j r = r.
  Proof.
    intros Hi Hr H1. pose proof (coords_in _ Hr). unfold dst, src. rewrite !nbr_one by done. unfold coords. rewrite rank_position by done. by rewrite Nat2Z.id.
  Qed.
  Lemma dom_tables r D : domain_of dims (Z.of_nat r) D ->
    dDims D = dims /\ dCoords D = coords r /\
    forall i j, i < 3 -> j < 2 -> Z.to_nat (dSource D i j) = src i j r /\ Z.to_nat (dDest D i j) = dst i j r /\ dShift D i j = shf i j r.
  Proof.
    intros H. destruct (initialize_tables _ _ _ Hd H) as (H1 & _ & H3 & H4). split; [done|]. split; [done|]. intros i j Hi Hj.
    destruct (H4 i j Hi Hj) as (-> & -> & ->). done.
  Qed.
  Lemma flag_iff r D i : domain_of dims (Z.of_nat r) D -> i < 3 -> xflag D i = bool_decide (1 < vget dims i)%Z.
  Proof. intros H Hi. destruct (dom_tables _ _ H) as (H1 & _). unfold xflag. by rewrite H1. Qed.
  Lemma dst_shift i j r : i < 3 -> j < 2 -> r < n -> (vget (coords (dst i j r)) i - step_of j = vget (coords r) i + shf i j (dst i j r) * vget dims i)%Z.
  Proof.
    intros Hi Hj Hr. unfold shf. rewrite coords_dst by done. unfold nbr. rewrite vget_vset_eq.
    pose proof (in_grid_get _ _ i (coords_in _ Hr)) as Hc. set (c := vget (coords r) i) in *. set (d := vget dims i) in *.
    pose proof (Z.div_mod ((c + step_of j) mod d - step_of j) d ltac:(lia)) as E1.
    assert (((c + step_of j) mod d - step_of j) mod d = c)%Z; [|lia].
    rewrite Zminus_mod_idemp_l. replace (c + step_of j - step_of j)%Z with c by lia. apply Z.mod_small. lia.
  Qed.
End grid.
