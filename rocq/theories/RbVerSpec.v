(** * What the tree's check of itself means *)
From Verif Require Export RbVerModel RbSpec.

Section spec.
  Context {V : Type}.
  Notation H := (gmap addr (tcell V)).
  Notation W := (world (tcell V)).

  (** [hv] is exactly a tree object whose nodes are linked to the shape [t] and
      whose header records [p] as the first and [q] as the last of them.
      Nothing is said about colors, order, or the node count [n], nor whether
      [p] and [q] are right. *)
  Definition linked_own (al : alloc_id) (hdr p q : addr) (n : nat) (t : tree V) (hv : H) : Prop :=
    let xs := elems t in
    hv !! hdr = Some (TCell (Some Red) (Some (root t)) (Some (Some p)) (Some (Some q)) (THead n)) /\
    tree_at al hv hdr t /\
    NoDup (hdr :: xs.*1) /\
    (forall a, is_Some (hv !! a) <-> a ∈ hdr :: xs.*1).
  Definition linked_is (o : tset) (p q : addr) (n : nat) (t : tree V) (hf : H) (w : W) : Prop :=
    exists hv, linked_own (t_alloc o) (t_hdr o) p q n t hv /\ heap_is w hv hf.
  (** The same where [p] and [q] are right. *)
  Definition links_is (o : tset) (n : nat) (t : tree V) (hf : H) (w : W) : Prop :=
    linked_is o (first_of (t_hdr o) (elems t)) (last_of (t_hdr o) (elems t)) n t hf w.

  Definition blacks (c : color) : nat := match c with Black => 1 | Red => 0 end.
  Definition rootval (t : tree V) : option V := match t with Leaf => None | Node _ _ v _ _ => Some v end.

  (** The number of black nodes on the way from the root to the leftmost node,
      [b] of them above [t]. *)
  Fixpoint lblack (b : nat) (t : tree V) : nat :=
    match t with
    | Leaf => b
    | Node c _ _ l _ => lblack (b + blacks c) l
    end.

  (** No red node has a red child, no left child is larger and no right child
      smaller than its parent, and the way from the root to any node without
      children has [len] black nodes, [b] of them above [t]. *)
  Fixpoint checked (comp : V -> V -> bool) (len b : nat) (t : tree V) : Prop :=
    match t with
    | Leaf => True
    | Node c _ v l r =>
        (c = Red -> tcol l = Black /\ tcol r = Black) /\
        (forall u, rootval l = Some u -> comp v u = false) /\
        (forall u, rootval r = Some u -> comp u v = false) /\
        (l = Leaf -> r = Leaf -> b + blacks c = len) /\
        checked comp len (b + blacks c) l /\
        checked comp len (b + blacks c) r
    end.
End spec.
