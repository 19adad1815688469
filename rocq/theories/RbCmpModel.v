(** * Comparing two trees

    The comparison operators of nestl/implementation/detail/red_black_tree.hpp
    ("rbt.hpp") and the two algorithms of nestl/algorithm.hpp they run over
    tree iterators.  [eqb] is the element type's operator== and [less] its
    operator<; both are assumed to be pure.  The operators compare with these
    and not with the tree's own Compare object.  An iterator is the address of
    its node, its operators == and != (rbt.hpp:225-235, 319-329) compare
    addresses, ++ is rb_increment (rbt.hpp:189-201, 283-295). *)
From Verif Require Export RbModel.

Section cmp.
  Context {V : Type} {L : limit}.
  Notation MT := (M (tcell V)).

  (** algorithm.hpp:70-80 *)
  Fixpoint tequal_loop (eqb : V -> V -> bool) (fuel : nat) (first1 last1 first2 : addr) : MT bool :=
    match fuel with
    | 0 => fail FFuel
    | S fuel =>
        if decide (first1 = last1) then ret true else
        let! x := tread first1 in
        let! y := tread first2 in
        if negb (eqb x y) then ret false else
        let! first1 := rb_increment first1 in
        let! first2 := rb_increment first2 in
        tequal_loop eqb fuel first1 last1 first2
    end.

  (** algorithm.hpp:83-101 *)
  Fixpoint tlex_loop (less : V -> V -> bool) (fuel : nat) (first1 last1 first2 last2 : addr) : MT bool :=
    match fuel with
    | 0 => fail FFuel
    | S fuel =>
        if decide (first1 <> last1 /\ first2 <> last2) then
          let! x := tread first1 in
          let! y := tread first2 in
          if less x y then ret true else
          let! y := tread first2 in
          let! x := tread first1 in
          if less y x then ret false else
          let! first1 := rb_increment first1 in
          let! first2 := rb_increment first2 in
          tlex_loop less fuel first1 last1 first2 last2
        else ret (bool_decide (first1 = last1 /\ first2 <> last2))
    end.

  (** rbt.hpp:1282-1288 *)
  Definition t_eq (eqb : V -> V -> bool) (x y : tset) : MT bool :=
    let! n := t_size x in
    let! m := t_size y in
    if decide (n = m) then
      let! first1 := t_begin x in
      let! first2 := t_begin y in
      let! fuel := cell_fuel in
      tequal_loop eqb fuel first1 (t_end x) first2
    else ret false.
  (** rbt.hpp:1290-1296 *)
  Definition t_lt (less : V -> V -> bool) (x y : tset) : MT bool :=
    let! first1 := t_begin x in
    let! first2 := t_begin y in
    let! fuel := cell_fuel in
    tlex_loop less fuel first1 (t_end x) first2 (t_end y).
  (** rbt.hpp:1298-1304 *)
  Definition t_ne (eqb : V -> V -> bool) (x y : tset) : MT bool :=
    let! b := t_eq eqb x y in ret (negb b).
  (** rbt.hpp:1306-1312 *)
  Definition t_gt (less : V -> V -> bool) (x y : tset) : MT bool := t_lt less y x.
  (** rbt.hpp:1314-1320 *)
  Definition t_le (less : V -> V -> bool) (x y : tset) : MT bool :=
    let! b := t_lt less y x in ret (negb b).
  (** rbt.hpp:1322-1328 *)
  Definition t_ge (less : V -> V -> bool) (x y : tset) : MT bool :=
    let! b := t_lt less x y in ret (negb b).
End cmp.
