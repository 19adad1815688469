(** * What the algorithms mean to their user *)
From Verif Require Export AlgoModel Order BaseLemmas.

Section spec.
  Context {V : Type}.
  Notation H := (gmap addr (vblock V)).

  (** The object alive in slot [o] of block [b]. *)
  Definition slot (h : H) (b : addr) (o : nat) : option V := h !! b ≫= fun blk => b_live blk !! o.

  (** Block [b] holds the objects [vs] in consecutive slots from [o] on. *)
  Definition objs (h : H) (b : addr) (o : nat) (vs : list V) : Prop :=
    (exists blk, h !! b = Some blk /\ o + length vs <= b_room blk) /\
    forall k v, vs !! k = Some v -> slot h b (o + k) = Some v.

  (** Same blocks, which may hold different objects. *)
  Definition same_blocks (h h' : H) : Prop :=
    forall b, (fun blk => (b_alloc blk, b_req blk, b_room blk)) <$> h' !! b =
              (fun blk => (b_alloc blk, b_req blk, b_room blk)) <$> h !! b.

  (** [h'] is [h] with the objects at [o], [o]+1, ... of block [b] replaced by
      [vs], and nothing else changed. *)
  Definition stored (h h' : H) (b : addr) (o : nat) (vs : list V) : Prop :=
    same_blocks h h' /\
    forall b' o', slot h' b' o' =
      if decide (b' = b /\ o <= o' < o + length vs) then vs !! (o' - o) else slot h b' o'.

  (** Lexicographic order: at the first position where the two sequences do
      not have equivalent elements, the left one has the smaller element, or
      only it has ended. *)
  Definition lex_less (comp : V -> V -> bool) (l r : list V) : Prop :=
    exists k,
      (forall i, i < k -> exists x y, l !! i = Some x /\ r !! i = Some y /\ same_rank comp x y = true) /\
      ((exists x y, l !! k = Some x /\ r !! k = Some y /\ comp x y = true) \/
       (l !! k = None /\ is_Some (r !! k))).
End spec.
