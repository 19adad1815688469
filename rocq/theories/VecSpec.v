(** * What a vector means to its user

    A vector object together with the part of the heap it owns stands for a
    sequence of values and a capacity. *)
From Verif Require Export VecModel BaseLemmas.

Section spec.
  Context {V : Type} (cf : cfg V).

  (** Capacities whose byte size the platform can provide. *)
  Definition cap_ok (cap : nat) : Prop := (N.of_nat cap * c_sizeof cf <= c_max cf)%N.

  (** [vec_owns v l cap hv]: [v] holds the sequence [l] with capacity [cap] and
      owns exactly the heap fragment [hv]: nothing (three null pointers), or
      one block obtained from v's allocator for [cap] elements, in which the
      objects alive are exactly the elements of [l], at slots 0, 1, 2, ... *)
  Definition vec_owns (v : vec_obj) (l : list V) (cap : nat) (hv : gmap addr (vblock V)) : Prop :=
    (m_start v = Null /\ m_finish v = Null /\ m_end_of_storage v = Null /\
     l = [] /\ cap = 0 /\ hv = ∅)
    \/
    (exists b,
       m_start v = Ptr b 0 /\ m_finish v = Ptr b (length l) /\ m_end_of_storage v = Ptr b cap /\
       length l <= cap /\ cap_ok cap /\
       hv = {[ b := Block (m_allocator v) cap cap (map_seq 0 l) ]}).

  (** The iterator to index [i] of a vector. *)
  Definition vec_pos (v : vec_obj) (i : nat) : ptr :=
    match m_start v with Null => Null | Ptr b _ => Ptr b i end.

  (** The argument is a temporary or an object outside the vector. *)
  Definition arg_outside (hf : gmap addr (vblock V)) (a : arg V) (x : V) : Prop :=
    match a with
    | AVal y => y = x
    | ARef Null => False
    | ARef (Ptr b o) => exists blk, hf !! b = Some blk /\ o < b_room blk /\ b_live blk !! o = Some x
    end.

  (** A vector that held [l] after an insertion at [i] that failed while
      making room: slot [j] of the elements is empty, those in front of it are
      in place, and those from [j] on sit one slot too far to the right, the
      last one behind end(). *)
  Definition vec_damaged (v : vec_obj) (l : list V) (i : nat) (hv : gmap addr (vblock V)) : Prop :=
    exists b cap j live,
      m_start v = Ptr b 0 /\ m_finish v = Ptr b (length l) /\ m_end_of_storage v = Ptr b cap /\
      i <= j < length l /\ length l < cap /\
      (forall k, k < j -> live !! k = l !! k) /\ live !! j = None /\ (forall k, j <= k -> live !! S k = l !! k) /\
      hv = {[ b := Block (m_allocator v) cap cap live ]}.

End spec.
