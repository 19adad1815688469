(** * Trees that keep equal values

    The functions of nestl/implementation/detail/red_black_tree.hpp ("rbt.hpp")
    that insert a value although an equivalent one is there already.  No public
    container uses them yet.  m_insert_equal and m_insert_equal_at
    (rbt.hpp:1793-1800, 1961-1973) call m_insert_ without the error object
    it needs and cannot be instantiated: the model passes the caller's. *)
From Verif Require Export RbModel.

Section multi.
  Context {V : Type} {L : limit} (cf : cfg V) (comp : V -> V -> bool).
  Notation MT := (M (tcell V)).

  (** rbt.hpp:1768-1772: descend to the right of equivalent elements *)
  Fixpoint equal_pos_loop (fuel : nat) (x : option addr) (y : addr) (k : targ V) : MT addr :=
    match fuel with
    | 0 => fail FFuel
    | S fuel =>
        match x with
        | None => ret y
        | Some x =>
            let! k' := read_targ k in
            let! kx := tread x in
            let! x' := (if comp k' kx then get_left x else get_right x) in
            equal_pos_loop fuel x' x k
        end
    end.
  (** rbt.hpp:1760-1774 *)
  Definition insert_equal_pos (o : tset) (k : targ V) : MT (option addr * option addr) :=
    let! root := get_parent (t_hdr o) in
    let! fuel := tree_fuel in
    let! y := equal_pos_loop fuel root (t_end o) k in
    ret (None, Some y).

  (** rbt.hpp:1793-1800 (with the error object) *)
  Definition insert_equal (o : tset) (v : targ V) : MT addr :=
    let! res := insert_equal_pos o v in
    match res with
    | (x, Some p) => m_insert cf comp o x p v
    | (_, None) => fail FNull
    end.

  (** rbt.hpp:1424-1441 *)
  Definition m_insert_lower (o : tset) (p : addr) (v : targ V) : MT addr :=
    let! insert_left := (if decide (p = t_end o) then ret true else
                         let! kp := tread p in
                         let! k := read_targ v in
                         ret (negb (comp kp k))) in
    let! l := tcreate_node cf o v in
    let! e := has_err in
    if (e : bool) then ret (t_end o) else
    let! l := deref l in
    do! insert_and_rebalance insert_left l p (t_hdr o) in
    let! n := get_count o in
    do! set_count o (S n) in
    ret l.

  (** rbt.hpp:1447-1454, 2003-2008: descend to the left of equivalent elements *)
  Fixpoint equal_lower_loop (fuel : nat) (x : option addr) (y : addr) (k : targ V) : MT addr :=
    match fuel with
    | 0 => fail FFuel
    | S fuel =>
        match x with
        | None => ret y
        | Some x =>
            let! kx := tread x in
            let! k' := read_targ k in
            let! x' := (if negb (comp kx k') then get_left x else get_right x) in
            equal_lower_loop fuel x' x k
        end
    end.
  (** rbt.hpp:1443-1456 *)
  Definition insert_equal_lower (o : tset) (v : targ V) : MT addr :=
    let! root := get_parent (t_hdr o) in
    let! fuel := tree_fuel in
    let! y := equal_lower_loop fuel root (t_end o) v in
    m_insert_lower o y v.

  (** rbt.hpp:1891-1959 *)
  Definition insert_hint_equal_pos (o : tset) (pos : addr) (k : targ V) : MT (option addr * option addr) :=
    if decide (pos = t_end o) then
      let! n := t_size o in
      let! b := (if decide (0 < n) then
                   let! rm := get_right (t_hdr o) in
                   let! rm := deref rm in
                   let! k' := read_targ k in
                   let! kr := tread rm in
                   ret (negb (comp k' kr))
                 else ret false) in
      if (b : bool) then
        let! rm := get_right (t_hdr o) in ret (None, rm)
      else insert_equal_pos o k
    else
      let! kp := tread pos in
      let! k' := read_targ k in
      if negb (comp kp k') then
        let! lm := get_left (t_hdr o) in
        if decide (lm = Some pos) then ret (lm, lm) else
        let! before := rb_decrement pos in
        let! k' := read_targ k in
        let! kb := tread before in
        if negb (comp k' kb) then
          let! r := get_right before in
          match r with
          | None => ret (None, Some before)
          | Some _ => ret (Some pos, Some pos)
          end
        else insert_equal_pos o k
      else
        let! rm := get_right (t_hdr o) in
        if decide (rm = Some pos) then ret (None, rm) else
        let! after := rb_increment pos in
        let! ka := tread after in
        let! k' := read_targ k in
        if negb (comp ka k') then
          let! r := get_right pos in
          match r with
          | None => ret (None, Some pos)
          | Some _ => ret (Some after, Some after)
          end
        else ret (None, None).

  (** rbt.hpp:1961-1973 (with the error object) *)
  Definition insert_equal_at (o : tset) (pos : addr) (v : targ V) : MT addr :=
    let! res := insert_hint_equal_pos o pos v in
    match res with
    | (x, Some p) => m_insert cf comp o x p v
    | (_, None) => insert_equal_lower o v
    end.

  (** rbt.hpp:1987-1996 *)
  Definition m_insert_lower_node (o : tset) (p z : addr) : MT addr :=
    let! insert_left := (if decide (p = t_end o) then ret true else
                         let! kp := tread p in
                         let! kz := tread z in
                         ret (negb (comp kp kz))) in
    do! insert_and_rebalance insert_left z p (t_hdr o) in
    let! n := get_count o in
    do! set_count o (S n) in
    ret z.
  (** rbt.hpp:1998-2010 *)
  Definition insert_equal_lower_node (o : tset) (z : addr) : MT addr :=
    let! root := get_parent (t_hdr o) in
    let! fuel := tree_fuel in
    let! y := equal_lower_loop fuel root (t_end o) (TARef z) in
    m_insert_lower_node o y z.

  (** rbt.hpp:2034-2056 *)
  Definition emplace_equal (o : tset) (v : targ V) : MT addr :=
    let! z := tcreate_node cf o v in
    let! e := has_err in
    if (e : bool) then ret (t_end o) else
    let! z := deref z in
    let! res := insert_equal_pos o (TARef z) in
    match res with
    | (x, Some p) => m_insert_node comp o x p z
    | (_, None) => fail FNull
    end.

  (** rbt.hpp:2088-2114 *)
  Definition emplace_hint_equal (o : tset) (pos : addr) (v : targ V) : MT addr :=
    let! z := tcreate_node cf o v in
    let! e := has_err in
    if (e : bool) then ret (t_end o) else
    let! z := deref z in
    let! res := insert_hint_equal_pos o pos (TARef z) in
    match res with
    | (x, Some p) => m_insert_node comp o x p z
    | (_, None) => insert_equal_lower_node o z
    end.

  (** A client that emplaces values one after another, until one fails. *)
  Fixpoint emplace_equal_all (o : tset) (vs : list (targ V)) : MT unit :=
    match vs with
    | [] => ret tt
    | v :: vs =>
        do! emplace_equal o v in
        let! e := has_err in
        if (e : bool) then ret tt else emplace_equal_all o vs
    end.
End multi.
