(** * How often an operation calls the allocator and constructs elements

    [w_allocs] counts the calls of the allocator, [w_ctors] the constructions
    of elements, successful or not. *)
From Verif Require Export BaseLemmas.

(** The operation asks for nothing: no allocation, no construction; the error
    object stays as it is. *)
Definition asks_nothing {C A} (m : M C A) : Prop := forall w a w', m w = Done a w' ->
  w_orc w' = w_orc w /\ w_err w' = w_err w /\ w_allocs w' = w_allocs w /\ w_ctors w' = w_ctors w.

(** What a call that adds [n] elements does between [w] and [w']: one allocation
    and one construction for each, or it stops at the first failure. *)
Definition asked {C} (n : nat) (w w' : world C) : Prop :=
  (w_err w' = None /\ w_allocs w' = w_allocs w + n /\ w_ctors w' = w_ctors w + n) \/
  (w_err w' <> None /\ exists k, k < n /\ w_allocs w' = w_allocs w + S k /\
     w_ctors w + k <= w_ctors w' <= w_ctors w + S k).
Definition asks {C A} (n : nat) (m : M C A) : Prop := forall w a w',
  w_err w = None -> m w = Done a w' -> asked n w w'.

(** At most [n] calls of the allocator, whatever happens. *)
Definition allocs_upto {C A} (n : nat) (m : M C A) : Prop := forall w a w',
  m w = Done a w' -> w_allocs w <= w_allocs w' <= w_allocs w + n.
