(** * What sets mean to their user *)
From Verif Require Export RbModel BaseLemmas Order.

(** ** Shapes: binary search trees with colored, addressed nodes *)

Inductive tree (V : Type) :=
| Leaf
| Node (c : color) (a : addr) (v : V) (l r : tree V).
Arguments Leaf {V}.
Arguments Node {V}.

Section shape.
  Context {V : Type}.
  Notation H := (gmap addr (tcell V)).

  Definition root (t : tree V) : option addr :=
    match t with Leaf => None | Node _ a _ _ _ => Some a end.

  (** The elements from left to right, with the nodes that hold them. *)
  Fixpoint elems (t : tree V) : list (addr * V) :=
    match t with
    | Leaf => []
    | Node _ a v l r => elems l ++ (a, v) :: elems r
    end.

  (** Length of the longest path from the root to a node. *)
  Fixpoint height (t : tree V) : nat :=
    match t with
    | Leaf => 0
    | Node _ _ _ l r => S (height l `max` height r)
    end.

  (** The cells of [t] are in the heap, linked to each other and, at the root,
      to the parent [p]. *)
  Fixpoint tree_at (al : alloc_id) (h : H) (p : addr) (t : tree V) : Prop :=
    match t with
    | Leaf => True
    | Node c a v l r =>
        h !! a = Some (TCell (Some c) (Some (Some p)) (Some (root l)) (Some (root r)) (TNode al (Some v))) /\
        tree_at al h a l /\ tree_at al h a r
    end.

  (** ** The red-black conditions *)

  Definition tcol (t : tree V) : color :=
    match t with Leaf => Black | Node c _ _ _ _ => c end.
  (** Every path down passes the same number [n] of black nodes. *)
  Fixpoint bal (n : nat) (t : tree V) : Prop :=
    match t with
    | Leaf => n = 0
    | Node Red _ _ l r => bal n l /\ bal n r
    | Node Black _ _ l r => exists m, n = S m /\ bal m l /\ bal m r
    end.
  (** No red node has a red child. *)
  Fixpoint nored (t : tree V) : Prop :=
    match t with
    | Leaf => True
    | Node c _ _ l r => (c = Red -> tcol l = Black /\ tcol r = Black) /\ nored l /\ nored r
    end.
  Definition rb (t : tree V) : Prop :=
    tcol t = Black /\ nored t /\ exists n, bal n t.

  (** ** A tree object *)

  (** Iterators to the first and to the last of the elements [xs]; the header
      (which is end()) if there is none. *)
  Definition first_of (hdr : addr) (xs : list (addr * V)) : addr := default hdr (head xs.*1).
  Definition last_of (hdr : addr) (xs : list (addr * V)) : addr := default hdr (last xs.*1).

  (** The iterator to element number [i] (end() beyond the last one). *)
  Definition tpos (hdr : addr) (xs : list (addr * V)) (i : nat) : addr :=
    default hdr (xs.*1 !! i).

  (** The heap fragment [hv] is exactly a tree object whose header is [hdr],
      with red-black shape [t]. *)
  Definition tree_own (al : alloc_id) (hdr : addr) (t : tree V) (hv : H) : Prop :=
    let xs := elems t in
    hv !! hdr = Some (TCell (Some Red) (Some (root t)) (Some (Some (first_of hdr xs)))
                        (Some (Some (last_of hdr xs))) (THead (length xs))) /\
    tree_at al hv hdr t /\
    NoDup (hdr :: xs.*1) /\
    (forall a, is_Some (hv !! a) <-> a ∈ hdr :: xs.*1) /\
    rb t.

  (** Strictly ascending. *)
  Definition ascending (comp : V -> V -> bool) (vs : list V) : Prop :=
    forall i j x y, i < j -> vs !! i = Some x -> vs !! j = Some y -> comp x y = true.

  (** The heap fragment [hv] is exactly a set whose elements are, in order,
      the values [v] in the nodes [a], for the pairs [(a, v)] of [xs]. *)
  Definition set_own (comp : V -> V -> bool) (al : alloc_id) (hdr : addr) (xs : list (addr * V)) (hv : H) : Prop :=
    ascending comp xs.*2 /\ exists t, elems t = xs /\ tree_own al hdr t hv.

  (** The heap consists of exactly this set and of [hf]. *)
  Definition set_is (comp : V -> V -> bool) (o : tset) (xs : list (addr * V)) (hf : H) (w : world (tcell V)) : Prop :=
    exists hv, set_own comp (t_alloc o) (t_hdr o) xs hv /\ heap_is w hv hf.

  (** The value of an argument: a temporary, an element of the set, or an
      element elsewhere. *)
  Definition targ_is (xs : list (addr * V)) (hf : H) (x : targ V) (v : V) : Prop :=
    match x with
    | TAVal y => y = v
    | TARef a => (a, v) ∈ xs \/ exists c al, hf !! a = Some c /\ tn_body c = TNode al (Some v)
    end.

  (** The errors insertion can report. *)
  Definition tnode_error (cf : cfg V) (e : error) : Prop :=
    e = EBadAlloc \/ (c_kind cf <> Nothrow /\ exists code, e = EElem code).

  (** Neither the allocator nor any element operation was called, and no error
      was reported. *)
  Definition t_no_calls (w w' : world (tcell V)) : Prop :=
    w_allocs w' = w_allocs w /\ w_ctors w' = w_ctors w /\ w_orc w' = w_orc w /\ w_err w' = w_err w.
End shape.
