(** * Model of nestl/algorithm.hpp

    The templates are modelled for raw pointers into arrays (VecModel.v); a
    range is a pair of pointers into one block. *)
From Verif Require Export VecModel.

Section algo.
  Context {V : Type} (cf : cfg V).
  Notation MV := (M (vblock V)).

  (** The value an object has after a failed assignment: an arbitrary function
      of the error code, the old value and the source. *)
  Context (torn : nat -> V -> V -> V).

  (** class_operations::assign (nestl/class_operations.hpp:68-73), dispatching
      to has_exceptions/detail/class_operations.hpp:44-65 or
      no_exceptions/detail/class_operations.hpp:28-34: [*d = *s]. *)
  Definition assign_at (d s : ptr) : MV unit :=
    let! v := read s in
    match c_kind cf with
    | Nothrow => overwrite d v
    | Direct | TwoPhase =>
        let! ev := next_event in
        match ev with
        | EvOk _ => overwrite d v
        | EvFail code =>
            let! old := read d in
            do! overwrite d (torn code old v) in
            put_err (Some (EElem code))
        end
    end.

  (** algorithm.hpp:16-34 *)
  Fixpoint copy_if_loop (pred : V -> bool) (fuel : nat) (first last d_first : ptr) : MV ptr :=
    match fuel with
    | 0 => fail FFuel
    | S fuel =>
        if decide (first = last) then ret d_first else
        let! x := read first in
        if pred x then
          do! assign_at d_first first in
          let! e := has_err in
          if (e : bool) then ret d_first else
          let! d_first' := padd d_first 1 in
          let! first' := padd first 1 in
          copy_if_loop pred fuel first' last d_first'
        else
          let! first' := padd first 1 in
          copy_if_loop pred fuel first' last d_first
    end.
  Definition nestl_copy_if (pred : V -> bool) (first last d_first : ptr) : MV ptr :=
    copy_if_loop pred (S (poff last)) first last d_first.

  (** algorithm.hpp:36-52 *)
  Fixpoint copy_loop (fuel : nat) (first last d_first : ptr) : MV ptr :=
    match fuel with
    | 0 => fail FFuel
    | S fuel =>
        if decide (first = last) then ret d_first else
        do! assign_at d_first first in
        let! e := has_err in
        if (e : bool) then ret d_first else
        let! d_first' := padd d_first 1 in
        let! first' := padd first 1 in
        copy_loop fuel first' last d_first'
    end.
  Definition nestl_copy (first last d_first : ptr) : MV ptr :=
    copy_loop (S (poff last)) first last d_first.

  (** algorithm.hpp:54-65; 69-80 with [p] = operator== *)
  Fixpoint equal_loop (p : V -> V -> bool) (fuel : nat) (first1 last1 first2 : ptr) : MV bool :=
    match fuel with
    | 0 => fail FFuel
    | S fuel =>
        if decide (first1 = last1) then ret true else
        let! x := read first1 in
        let! y := read first2 in
        if p x y then
          let! first1' := padd first1 1 in
          let! first2' := padd first2 1 in
          equal_loop p fuel first1' last1 first2'
        else ret false
    end.
  Definition nestl_equal (p : V -> V -> bool) (first1 last1 first2 : ptr) : MV bool :=
    equal_loop p (S (poff last1)) first1 last1 first2.

  (** algorithm.hpp:103-122; 83-101 with [comp] = operator< *)
  Fixpoint lex_loop (comp : V -> V -> bool) (fuel : nat) (first1 last1 first2 last2 : ptr) : MV bool :=
    match fuel with
    | 0 => fail FFuel
    | S fuel =>
        if decide (first1 <> last1 /\ first2 <> last2) then
          let! x := read first1 in
          let! y := read first2 in
          if comp x y then ret true else
          let! y := read first2 in
          let! x := read first1 in
          if comp y x then ret false else
          let! first1' := padd first1 1 in
          let! first2' := padd first2 1 in
          lex_loop comp fuel first1' last1 first2' last2
        else ret (bool_decide (first1 = last1 /\ first2 <> last2))
    end.
  Definition nestl_lexicographical_compare (comp : V -> V -> bool) (first1 last1 first2 last2 : ptr) : MV bool :=
    lex_loop comp (S (poff last1)) first1 last1 first2 last2.
End algo.
