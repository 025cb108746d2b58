(** Model of McMd::LinkMaster and McMd::Link (src/mcMd/links), compiled with MCMD_LINK.  Atoms are their ids, links are
    their indices in links_.  Notifications of observers are left out. *)
From Verif Require Import Base Containers SpeciesModel.

(** Link.h:85-95 (without the tag, which is the index); NULL pointers are [None]. *)
Record link := LK { lk0 : option nat; lk1 : option nat; lkType : Z; lkActive : bool }.
(** Link::Link and Link::clear, Link.h:138-143, 219-225. *)
Definition lk_null : link := LK None None (-1) false.
(** Link::setAtoms, Link.h:148-154: does nothing if the atoms are the same. *)
Definition lk_setAtoms (k : link) (a0 a1 : option nat) : link :=
  if decide (a0 = a1) then k else LK a0 a1 (lkType k) (lkActive k).

(** LinkMaster.h:180-198; the capacity of links_ is [length lmLinks], atomCapacity_ is [length lmSets]. *)
Record lmaster := LM { lmLinks : list link; lmSet : list nat; lmRes : list nat; lmSets : list (list nat) }.

(** LinkMaster::allocate, LinkMaster.cpp:219-240. *)
Definition lm_alloc (linkCap atomCap : nat) : lmaster :=
  LM (replicate linkCap lk_null) [] (seq 0 linkCap) (replicate atomCap []).

(** SSet<Link,400> (LinkMaster.h:57; util, documented): append throws when full and does not look for duplicates,
    remove throws if the element is absent.  The order of the elements is not used. *)
Definition sset_append (l : list nat) (x : nat) : outcome (list nat) :=
  if decide (length l < 400) then Ok (l ++ [x]) else Throw.
(** atomLinkSets_[a].append, LinkMaster.cpp:65-66. *)
Definition sets_append (ss : list (list nat)) (a l : nat) : outcome (list (list nat)) :=
  let? s := aget ss a in let? s := sset_append s l in aset ss a s.
(** atomLinkSets_[a].remove, LinkMaster.cpp:95-96. *)
Definition sets_remove (ss : list (list nat)) (a l : nat) : outcome (list (list nat)) :=
  let? s := aget ss a in let? s := set_remove s l in aset ss a s.
(** atomLinkSets_[a].isElement(l).  LinkMaster.cpp:77-200, 245-319. *)
Definition sets_has (ss : list (list nat)) (a l : nat) : outcome bool :=
  let? s := aget ss a in Ok (bool_decide (l ∈ s)).
(** A reference through an atom pointer: [None] is a null pointer.  Link::atom0, atom1, Link.h. *)
Definition deref (o : option nat) : outcome nat := match o with Some a => Ok a | None => UB end.

(** addLink, LinkMaster.cpp:39-71. *)
Definition add_link (s : lmaster) (a0 a1 : nat) (ty : Z) : outcome lmaster :=
  let? _ := check (bool_decide (a0 < length (lmSets s))) in
  let? _ := check (bool_decide (a1 < length (lmSets s))) in
  let? (l, res) := stack_pop (lmRes s) in
  let? ls := set_append (lmSet s) l in
  let? k := aget (lmLinks s) l in
  let k := lk_setAtoms k (Some a0) (Some a1) in
  let? links := aset (lmLinks s) l (LK (lk0 k) (lk1 k) ty true) in
  let? ss := sets_append (lmSets s) a0 l in
  let? ss := sets_append ss a1 l in
  Ok (LM links ls res ss).

(** removeLink, LinkMaster.cpp:77-110; [id] is the position in linkSet_ (LinkMaster.h:255-256). *)
Definition remove_link (s : lmaster) (id : nat) : outcome lmaster :=
  let? l := aget (lmSet s) id in
  let? k := aget (lmLinks s) l in
  let? _ := check (lkActive k) in
  let? a0 := deref (lk0 k) in
  let? a1 := deref (lk1 k) in
  let? h0 := sets_has (lmSets s) a0 l in
  let? _ := check h0 in
  let? h1 := sets_has (lmSets s) a1 l in
  let? _ := check h1 in
  let? ss := sets_remove (lmSets s) a0 l in
  let? ss := sets_remove ss a1 l in
  let? links := aset (lmLinks s) l lk_null in
  let? ls := set_remove (lmSet s) l in
  let? res := stack_push (length (lmLinks s)) (lmRes s) l in
  Ok (LM links ls res ss).

(** reSetAtoms, LinkMaster.cpp:115-155; [l] is the link (any element of links_). *)
Definition reset_atoms (s : lmaster) (l a0 a1 : nat) : outcome lmaster :=
  let? k := aget (lmLinks s) l in
  let? o0 := deref (lk0 k) in
  let? o1 := deref (lk1 k) in
  let? _ := check (lkActive k) in
  let? _ := check (bool_decide (a0 < length (lmSets s))) in
  let? _ := check (bool_decide (a1 < length (lmSets s))) in
  let? h0 := sets_has (lmSets s) o0 l in
  let? _ := check h0 in
  let? h1 := sets_has (lmSets s) o1 l in
  let? _ := check h1 in
  let? ss := sets_remove (lmSets s) o0 l in
  let? ss := sets_remove ss o1 l in
  let? links := aset (lmLinks s) l (lk_setAtoms k (Some a0) (Some a1)) in
  let? ss := sets_append ss a0 l in
  let? ss := sets_append ss a1 l in
  Ok (LM links (lmSet s) (lmRes s) ss).

(** reSetAtom, LinkMaster.cpp:160-200; [e0] is endId == 0. *)
Definition reset_atom (s : lmaster) (l a : nat) (e0 : bool) : outcome lmaster :=
  let? k := aget (lmLinks s) l in
  let? o := deref (if e0 then lk0 k else lk1 k) in
  let? _ := check (lkActive k) in
  let? _ := check (bool_decide (a < length (lmSets s))) in
  let? h := sets_has (lmSets s) o l in
  let? _ := check h in
  let? ss := sets_remove (lmSets s) o l in
  let? links := aset (lmLinks s) l
      (if e0 then lk_setAtoms k (Some a) (lk1 k) else lk_setAtoms k (lk0 k) (Some a)) in
  let? ss := sets_append ss a l in
  Ok (LM links (lmSet s) (lmRes s) ss).

(** clear, LinkMaster.cpp:324-329. *)
Definition clear_links (s : lmaster) : outcome lmaster :=
  foldM (fun s id => remove_link s id) s (rev (seq 0 (length (lmSet s)))).

(** isValid, LinkMaster.cpp:245-319, after allocation.  The addresses taken through null references on lines 265-266
    are taken to be null, as the test that follows assumes. *)
Definition lm_valid (s : lmaster) : outcome () :=
  let? _ := check (bool_decide (length (lmLinks s) = length (lmRes s) + length (lmSet s))) in
  let? _ := forM (lmSet s) (fun l =>
    let? k := aget (lmLinks s) l in
    match lk0 k, lk1 k with
    | Some a0, Some a1 =>
        let? _ := check (bool_decide (a0 <> a1)) in
        let? _ := check (lkActive k) in
        let? h0 := sets_has (lmSets s) a0 l in
        let? _ := check h0 in
        let? h1 := sets_has (lmSets s) a1 l in
        check h1
    | _, _ => Throw
    end) in
  let? _ := check (bool_decide (length (filter (fun k => lkActive k = true) (lmLinks s)) = length (lmSet s))) in
  check (bool_decide (sum_list (map length (lmSets s)) = 2 * length (lmSet s))).

(** The public member functions that change the links, LinkMaster.h:84-173. *)
Inductive lop :=
| LAdd (a0 a1 : nat) (ty : Z)
| LRemove (id : nat)
| LReset (l a0 a1 : nat)
| LResetOne (l a : nat) (e0 : bool)
| LClear.
(** LinkMaster.cpp:39-200, 324-329. *)
Definition lstep (s : lmaster) (o : lop) : outcome lmaster :=
  match o with
  | LAdd a0 a1 ty => add_link s a0 a1 ty
  | LRemove id => remove_link s id
  | LReset l a0 a1 => reset_atoms s l a0 a1
  | LResetOne l a e0 => reset_atom s l a e0
  | LClear => clear_links s
  end.
