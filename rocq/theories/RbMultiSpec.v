(** * What a tree with equal values means to its user *)
From Verif Require Export RbMultiModel RbSpec.

Section spec.
  Context {V : Type} (comp : V -> V -> bool).
  Notation H := (gmap addr (tcell V)).
  Notation W := (world (tcell V)).

  (** [hv] is exactly the tree with allocator [al] and header [hdr]; its
      elements are, in iteration order, the values [v] in the nodes [a] for the
      pairs [(a, v)] of [xs], and none is smaller than one in front of it. *)
  Definition mset_own (al : alloc_id) (hdr : addr) (xs : list (addr * V)) (hv : H) : Prop :=
    lsorted comp xs.*2 /\ exists t, elems t = xs /\ tree_own al hdr t hv.

  (** The heap consists of [hf] and of exactly the tree [o]. *)
  Definition mset_is (o : tset) (xs : list (addr * V)) (hf : H) (w : W) : Prop :=
    exists hv, mset_own (t_alloc o) (t_hdr o) xs hv /\ heap_is w hv hf.

  (** [v] can stand at position [j] of [xs] without breaking the order. *)
  Definition fits (v : V) (xs : list (addr * V)) (j : nat) : Prop :=
    j <= length xs /\ (forall p, p ∈ take j xs -> comp v p.2 = false) /\ (forall p, p ∈ drop j xs -> comp p.2 v = false).

  (** The last such position, the first, and one as close to [i] as any. *)
  Definition last_place (v : V) xs (j : nat) : Prop := fits v xs j /\ forall j', fits v xs j' -> j' <= j.
  Definition first_place (v : V) xs (j : nat) : Prop := fits v xs j /\ forall j', fits v xs j' -> j <= j'.
  Definition apart (i j : nat) : nat := (i - j) + (j - i).
  Definition close_place (i : nat) (v : V) xs (j : nat) : Prop := fits v xs j /\ forall j', fits v xs j' -> apart i j <= apart i j'.

  (** The effect of inserting [v]: either one new node, which is [it], at a
      [place] of the kind asked for, with one allocation and one construction,
      or an error and nothing else. *)
  Definition put_at (cf : cfg V) (place : V -> list (addr * V) -> nat -> Prop) (o : tset) (xs : list (addr * V)) (hf : H)
      (v : V) (w : W) (it : addr) (w' : W) : Prop :=
    match w_err w' with
    | None => exists j, place v xs j /\ w_heap w !! it = None /\ mset_is o (take j xs ++ (it, v) :: drop j xs) hf w' /\
        w_allocs w' = S (w_allocs w) /\ w_ctors w' = S (w_ctors w)
    | Some e => tnode_error cf e /\ it = t_end o /\ w_heap w' = w_heap w
    end.

  (** The elements ranking like [u], in order. *)
  Definition ranked (u : V) (l : list V) : list V := filter (fun x => same_rank comp u x = true) l.
End spec.
