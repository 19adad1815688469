(** * How often ++ and -- go round when a program iterates over a tree

    The functions of RbModel.v with a meter: the loops of ++ and -- take one
    from [n] in every round, return what is left, and stop the program if
    nothing is left.  [meter_same] (Meter.v) says that they do what the functions
    of RbModel.v do. *)
From Verif Require Export RbHistSpec.

Section meter.
  Context {V : Type}.
  Notation MT := (M (tcell V)).

  (** rbt.hpp:43-62, 64-81, as [minimum_loop], [maximum_loop] *)
  Fixpoint minimum_m (n : nat) (x : addr) : MT (addr * nat) :=
    match n with
    | 0 => fail FFuel
    | S n => let! l := get_left x in match l with Some l => minimum_m n l | None => ret (x, n) end
    end.
  Fixpoint maximum_m (n : nat) (x : addr) : MT (addr * nat) :=
    match n with
    | 0 => fail FFuel
    | S n => let! r := get_right x in match r with Some r => maximum_m n r | None => ret (x, n) end
    end.
  (** rbt.hpp:122-127, as [inc_loop] *)
  Fixpoint inc_m (n : nat) (x y : addr) : MT (addr * addr * nat) :=
    match n with
    | 0 => fail FFuel
    | S n =>
        let! r := get_right y in
        if decide (r = Some x) then let! p := parent_of y in inc_m n y p else ret (x, y, n)
    end.
  (** rbt.hpp:109-134, as [rb_increment] *)
  Definition increment_m (n : nat) (x : addr) : MT (addr * nat) :=
    let! r := get_right x in
    match r with
    | Some r => minimum_m n r
    | None =>
        let! y := parent_of x in
        let! q := inc_m n x y in
        let! r := get_right q.1.1 in
        if decide (r <> Some q.1.2) then ret (q.1.2, q.2) else ret (q.1.1, q.2)
    end.
  (** rbt.hpp:150-155, as [dec_loop] *)
  Fixpoint dec_m (n : nat) (x y : addr) : MT (addr * nat) :=
    match n with
    | 0 => fail FFuel
    | S n =>
        let! l := get_left y in
        if decide (l = Some x) then let! p := parent_of y in dec_m n y p else ret (y, n)
    end.
  (** rbt.hpp:136-159, as [rb_decrement] *)
  Definition decrement_m (n : nat) (x : addr) : MT (addr * nat) :=
    let! c := get_color x in
    let! hd := (if decide (c = Red) then
                  let! p := parent_of x in
                  let! pp := get_parent p in
                  ret (bool_decide (pp = Some x))
                else ret false) in
    if (hd : bool) then let! r := get_right x in let! a := deref r in ret (a, n) else
    let! l := get_left x in
    match l with
    | Some y => maximum_m n y
    | None => let! y := parent_of x in dec_m n x y
    end.

  (** [m] times ++it (or --it), with one meter. *)
  Fixpoint forward_m (m n : nat) (it : addr) : MT (addr * nat) :=
    match m with
    | 0 => ret (it, n)
    | S m => let! r := increment_m n it in forward_m m r.2 r.1
    end.
  Fixpoint backward_m (m n : nat) (it : addr) : MT (addr * nat) :=
    match m with
    | 0 => ret (it, n)
    | S m => let! r := decrement_m n it in backward_m m r.2 r.1
    end.
End meter.
