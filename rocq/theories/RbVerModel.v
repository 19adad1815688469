(** * The tree's check of itself

    __rb_verify of nestl/implementation/detail/red_black_tree.hpp ("rbt.hpp").
    It calls rb_tree_black_count, which rbt.hpp:2215-2216 declares and nothing
    defines; the model uses the definition of libstdc++, from where the code
    is taken: the number of black nodes from a node up to the root, both
    included. *)
From Verif Require Export RbModel.

Section verify.
  Context {V : Type} {L : limit} (cf : cfg V) (comp : V -> V -> bool).
  Notation MT := (M (tcell V)).

  (** declared at rbt.hpp:2215-2216, see above *)
  Fixpoint black_count_loop (fuel : nat) (node : addr) (root : option addr) (sum : nat) : MT nat :=
    match fuel with
    | 0 => fail FFuel
    | S fuel =>
        let! c := get_color node in
        let sum := match c with Black => S sum | Red => sum end in
        if decide (Some node = root) then ret sum else
        let! p := parent_of node in
        black_count_loop fuel p root sum
    end.
  Definition black_count (node : option addr) (root : option addr) : MT nat :=
    match node with
    | None => ret 0
    | Some node => let! fuel := tree_fuel in black_count_loop fuel node root 0
    end.

  (** one round of the loop, rbt.hpp:2232-2256: false to go on, true to
      return false *)
  Definition verify_node (root : option addr) (len : nat) (x : addr) : MT bool :=
    let! xl := get_left x in
    let! xr := get_right x in
    let! c := get_color x in
    let! red := (if decide (c = Red) then
                   let! l := is_red xl in
                   if (l : bool) then ret true else is_red xr
                 else ret false) in
    if (red : bool) then ret true else
    let! b := (match xl with
               | Some xl =>
                   let! kx := tread x in
                   let! kl := tread xl in
                   ret (comp kx kl)
               | None => ret false
               end) in
    if (b : bool) then ret true else
    let! b := (match xr with
               | Some xr =>
                   let! kr := tread xr in
                   let! kx := tread x in
                   ret (comp kr kx)
               | None => ret false
               end) in
    if (b : bool) then ret true else
    match xl, xr with
    | None, None =>
        let! n := black_count (Some x) root in
        ret (negb (bool_decide (n = len)))
    | _, _ => ret false
    end.

  (** rbt.hpp:2230-2257; false if a round returned false *)
  Fixpoint verify_loop (fuel : nat) (root : option addr) (len : nat) (it last : addr) : MT bool :=
    match fuel with
    | 0 => fail FFuel
    | S fuel =>
        if decide (it = last) then ret true else
        let! bad := verify_node root len it in
        if (bad : bool) then ret false else
        let! it := rb_increment it in
        verify_loop fuel root len it last
    end.

  (** rbt.hpp:2218-2269 *)
  Definition rb_verify (o : tset) : MT bool :=
    let! n := get_count o in
    let! b := t_begin o in
    if decide (n = 0 \/ b = t_end o) then
      if decide (n = 0 /\ b = t_end o) then
        let! l := get_left (t_hdr o) in
        let! r := get_right (t_hdr o) in
        ret (bool_decide (l = Some (t_end o)) && bool_decide (r = Some (t_end o)))
      else ret false
    else
      let! lm := get_left (t_hdr o) in
      let! root := get_parent (t_hdr o) in
      let! len := black_count lm root in
      let! fuel := cell_fuel in
      let! ok := verify_loop fuel root len b (t_end o) in
      if negb ok then ret false else
      let! lm := get_left (t_hdr o) in
      let! root := get_parent (t_hdr o) in
      let! m := s_minimum cf root in
      if decide (lm <> Some m) then ret false else
      let! rm := get_right (t_hdr o) in
      let! root := get_parent (t_hdr o) in
      let! m := s_maximum cf root in
      if decide (rm <> Some m) then ret false else
      ret true.
End verify.
