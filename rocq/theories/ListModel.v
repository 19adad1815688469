(** * Model of nestl::list

    nestl/implementation/list.hpp and the exception-enabled wrapper
    nestl/has_exceptions/list.hpp.  A list is a ring of cells: the header (the
    member m_node of the list object) and one node per element. *)

From Verif Require Export Base.

(** What a cell holds besides its links: nothing (the header is a
    [list_node_base], list.hpp:46-154), or the storage of a value
    (list.hpp:158-199), raw or live, obtained from some allocator. *)
Inductive lbody (V : Type) :=
| LHead
| LNode (al : alloc_id) (v : option V).
Arguments LHead {V}.
Arguments LNode {V}.

(** list.hpp:48-49.  [None]: null or not yet initialised. *)
Record lcell (V : Type) := LCell {
  ln_next : option addr;
  ln_prev : option addr;
  ln_body : lbody V
}.
Arguments LCell {V}.
Arguments ln_next {V}.
Arguments ln_prev {V}.
Arguments ln_body {V}.

#[global] Instance lbody_eq_dec {V} `{EqDecision V} : EqDecision (lbody V).
Proof. solve_decision. Defined.
#[global] Instance lcell_eq_dec {V} `{EqDecision V} : EqDecision (lcell V).
Proof. solve_decision. Defined.

(** list.hpp:600-602: the node allocator and the address of the member m_node.
    No operation changes either of them (swap exchanges links only). *)
Record lst_obj := Lst {
  l_alloc : alloc_id;
  l_hdr : addr
}.
#[global] Instance lst_obj_eq_dec : EqDecision lst_obj.
Proof. solve_decision. Defined.

(** A value argument: a temporary, or a reference to the value of a node. *)
Inductive larg (V : Type) :=
| LAVal (v : V)
| LARef (a : addr).
Arguments LAVal {V}.
Arguments LARef {V}.

Section list.
  Context {V : Type} (cf : cfg V).
  Notation ML := (M (lcell V)).

  (** ** Fields.  Using a null link faults at once (in C++: when it is
      dereferenced next). *)

  Definition get_next (a : addr) : ML addr :=
    let! c := load a in
    match ln_next c with Some b => ret b | None => fail FNull end.
  Definition get_prev (a : addr) : ML addr :=
    let! c := load a in
    match ln_prev c with Some b => ret b | None => fail FNull end.
  Definition set_next (a b : addr) : ML unit :=
    let! c := load a in
    store a (LCell (Some b) (ln_prev c) (ln_body c)).
  Definition set_prev (a b : addr) : ML unit :=
    let! c := load a in
    store a (LCell (ln_next c) (Some b) (ln_body c)).

  (** NESTL_CHECK_LIST_NODE, list.hpp:27-44 *)
  Definition check_node (a : addr) : ML unit :=
    if c_dbg cf then
      let! p := get_prev a in
      let! n := get_next a in
      let! pn := get_next p in
      do! assert_ cf (bool_decide (pn = a)) in
      let! np := get_prev n in
      assert_ cf (bool_decide (np = a))
    else ret tt.

  (** ** Values *)

  Definition lplace (a : addr) (v : V) : ML unit :=
    let! c := load a in
    match ln_body c with
    | LHead => fail FBounds
    | LNode al None => store a (LCell (ln_next c) (ln_prev c) (LNode al (Some v)))
    | LNode _ (Some _) => fail FLive
    end.
  Definition lread (a : addr) : ML V :=
    let! c := load a in
    match ln_body c with
    | LNode _ (Some v) => ret v
    | _ => fail FRaw
    end.
  Definition loverwrite (a : addr) (v : V) : ML unit :=
    let! c := load a in
    match ln_body c with
    | LNode al (Some _) => store a (LCell (ln_next c) (ln_prev c) (LNode al (Some v)))
    | _ => fail FRaw
    end.
  (** list.hpp:167-171 *)
  Definition destroy_value (a : addr) : ML unit :=
    let! c := load a in
    match ln_body c with
    | LNode al (Some _) => store a (LCell (ln_next c) (ln_prev c) (LNode al None))
    | _ => fail FRaw
    end.
  Definition read_larg (x : larg V) : ML V :=
    match x with LAVal v => ret v | LARef a => lread a end.

  (** nestl/allocator.hpp:63-66 for one node.  The model insists on the same
      allocator and on the value having been destroyed. *)
  Definition deallocate_node (al : alloc_id) (a : addr) : ML unit :=
    let! h := get_heap in
    match h !! a with
    | Some (LCell _ _ (LNode al' v)) =>
        if decide (al' <> al) then fail FAlloc else
        match v with
        | Some _ => fail FLive
        | None => free_cell a
        end
    | _ => fail FFree
    end.

  (** list.hpp:1273-1290.  The new node's links are uninitialised. *)
  Definition create_node (o : lst_obj) (x : larg V) : ML (option addr) :=
    let! r := alloc_cell (LCell None None (LNode (l_alloc o) None)) in
    let! e := has_err in
    if (e : bool) then ret None else
    match r with
    | None => fail FNull
    | Some a =>
        do! construct cf (lplace a) (loverwrite a) (destroy_value a) (read_larg x) in
        let! e := has_err in
        if (e : bool) then
          do! deallocate_node (l_alloc o) a in   (* allocGuard *)
          ret None
        else ret (Some a)
    end.

  (** ** list_node_base *)

  (** list.hpp:88-94 *)
  Definition init_empty (a : addr) : ML unit :=
    do! set_next a a in
    do! set_prev a a in
    check_node a.

  (** list.hpp:96-108 *)
  Definition inject (this node : addr) : ML unit :=
    do! check_node this in
    do! check_node node in
    do! set_next this node in
    let! np := get_prev node in
    do! set_prev this np in
    let! np := get_prev node in
    do! set_next np this in
    do! set_prev node this in
    do! check_node this in
    check_node node.

  (** list.hpp:110-130 *)
  Definition node_remove (this : addr) : ML unit :=
    do! check_node this in
    let! next_node := get_next this in
    do! check_node next_node in
    let! prev_node := get_prev this in
    do! check_node prev_node in
    do! set_next prev_node next_node in
    do! set_prev next_node prev_node in
    do! check_node next_node in
    check_node prev_node.

  (** list.hpp:133-153 *)
  Definition transfer (this first last : addr) : ML unit :=
    do! check_node this in
    do! check_node first in
    do! check_node last in
    do! assert_ cf (negb (bool_decide (this = last))) in
    let! lp := get_prev last in
    do! set_next lp this in
    let! fp := get_prev first in
    do! set_next fp last in
    let! tp := get_prev this in
    do! set_next tp first in
    let! oldPrev := get_prev this in
    let! lp := get_prev last in
    do! set_prev this lp in
    let! fp := get_prev first in
    do! set_prev last fp in
    do! set_prev first oldPrev in
    do! check_node this in
    do! check_node first in
    check_node last.

  (** list.hpp:51-86 *)
  Definition swap_nodes (left right : addr) : ML unit :=
    do! check_node left in
    do! check_node right in
    let! ln := get_next left in
    let! rn := get_next right in
    do! (if decide (ln <> left) then
           if decide (rn <> right) then
             (* std::swap of m_next, then of m_prev *)
             do! set_next left rn in
             do! set_next right ln in
             let! lp := get_prev left in
             let! rp := get_prev right in
             do! set_prev left rp in
             do! set_prev right lp in
             let! p := get_prev left in
             do! set_next p left in
             let! n := get_next left in
             do! set_prev n left in
             let! p := get_prev right in
             do! set_next p right in
             let! n := get_next right in
             set_prev n right
           else
             do! set_next right ln in
             let! lp := get_prev left in
             do! set_prev right lp in
             let! p := get_prev right in
             do! set_next p right in
             let! n := get_next right in
             do! set_prev n right in
             do! set_prev left left in
             set_next left left
         else if decide (rn <> right) then
           do! set_next left rn in
           let! rp := get_prev right in
           do! set_prev left rp in
           let! p := get_prev left in
           do! set_next p left in
           let! n := get_next left in
           do! set_prev n left in
           do! set_prev right right in
           set_next right right
         else ret tt) in
    do! check_node left in
    check_node right.

  (** ** Iterators: the address of a cell (list.hpp:203-415; list_iterator and
      list_const_iterator behave alike) *)

  (** list.hpp:219-223: constructor from a node pointer *)
  Definition mk_iter (a : addr) : ML addr :=
    do! check_node a in ret a.
  (** list.hpp:225-230 *)
  Definition it_deref (a : addr) : ML V :=
    do! check_node a in lread a.
  (** list.hpp:239-246 *)
  Definition it_inc (a : addr) : ML addr :=
    do! check_node a in
    let! b := get_next a in
    do! check_node b in
    ret b.
  (** list.hpp:259-266 *)
  Definition it_dec (a : addr) : ML addr :=
    do! check_node a in
    let! b := get_prev a in
    do! check_node b in
    ret b.
  (** list.hpp:279-285 and 287-293; returns whether they are equal *)
  Definition it_eq (a b : addr) : ML bool :=
    do! check_node a in
    do! check_node b in
    ret (bool_decide (a = b)).
  (** list.hpp:295-300 *)
  Definition it_node (a : addr) : ML addr :=
    do! check_node a in ret a.

  (** ** Construction and destruction *)

  (** Fuel for a walk: no walk visits more cells than there are. *)
  Definition heap_fuel : ML nat := let! h := get_heap in ret (S (size h)).

  (** list.hpp:669-675, 1232-1237: a fresh list object (the header is
      value-initialised, then made an empty ring). *)
  Definition lst_new (al : alloc_id) : ML lst_obj :=
    let! a := new_local (LCell None None LHead) in
    do! init_empty a in
    ret (Lst al a).

  (** list.hpp:1239-1253 *)
  Fixpoint destroy_loop (fuel : nat) (al : alloc_id) (hdr current : addr) : ML unit :=
    match fuel with
    | 0 => fail FFuel
    | S fuel =>
        if decide (current = hdr) then ret tt else
        let! nxt := get_next current in
        do! destroy_value current in
        do! deallocate_node al current in
        destroy_loop fuel al hdr nxt
    end.
  Definition destroy_list_content (o : lst_obj) : ML unit :=
    let! cur := get_next (l_hdr o) in
    let! fuel := heap_fuel in
    destroy_loop fuel (l_alloc o) (l_hdr o) cur.

  (** list.hpp:686-690; the storage of the list object itself goes away. *)
  Definition lst_destroy (o : lst_obj) : ML unit :=
    do! destroy_list_content o in
    free_cell (l_hdr o).

  (** list.hpp:893-899 *)
  Definition lst_clear (o : lst_obj) : ML unit :=
    do! destroy_list_content o in
    init_empty (l_hdr o).

  (** list.hpp:1060-1065, 1255-1260: links are exchanged, allocators are not *)
  Definition lst_swap (o other : lst_obj) : ML unit :=
    swap_nodes (l_hdr other) (l_hdr o).

  (** list.hpp:677-684 *)
  Definition lst_move_ctor (other : lst_obj) : ML lst_obj :=
    let! o := lst_new (l_alloc other) in
    do! lst_swap o other in
    ret o.

  (** list.hpp:1262-1268.  operator= (699-704) passes an lvalue to the rvalue
      parameter and does not compile; modelled as intended. *)
  Definition lst_move_assign (o other : lst_obj) : ML unit :=
    let! tmp := lst_move_ctor o in
    do! lst_swap o other in
    lst_destroy tmp.

  (** ** Element access, iterators, capacity *)

  (** list.hpp:785-868 *)
  Definition lst_begin (o : lst_obj) : ML addr :=
    let! n := get_next (l_hdr o) in mk_iter n.
  Definition lst_end (o : lst_obj) : ML addr := mk_iter (l_hdr o).
  (** list.hpp:870-875 *)
  Definition lst_empty (o : lst_obj) : ML bool :=
    let! n := get_next (l_hdr o) in ret (bool_decide (n = l_hdr o)).

  (** std::distance on bidirectional iterators, list.hpp:877-882 *)
  Fixpoint distance_loop (fuel : nat) (first last : addr) (n : nat) : ML nat :=
    match fuel with
    | 0 => fail FFuel
    | S fuel =>
        let! q := it_eq first last in
        if (q : bool) then ret n else
        let! first := it_inc first in
        distance_loop fuel first last (S n)
    end.
  Definition lst_size (o : lst_obj) : ML nat :=
    let! b := lst_begin o in
    let! e := lst_end o in
    let! fuel := heap_fuel in
    distance_loop fuel b e 0.

  (** list.hpp:753-767 *)
  Definition lst_front (o : lst_obj) : ML V :=
    let! e := lst_empty o in
    do! assert_ cf (negb e) in
    let! b := lst_begin o in
    it_deref b.
  (** list.hpp:769-783: [*rbegin()] is the element before end() *)
  Definition lst_back (o : lst_obj) : ML V :=
    let! e := lst_empty o in
    do! assert_ cf (negb e) in
    let! b := lst_end o in
    let! b := it_dec b in
    it_deref b.

  (** What a client sees walking from begin() to end(), and from rbegin() to
      rend() (std::reverse_iterator dereferences the element before). *)
  Fixpoint walk_loop (fuel : nat) (first last : addr) : ML (list V) :=
    match fuel with
    | 0 => fail FFuel
    | S fuel =>
        let! q := it_eq first last in
        if (q : bool) then ret [] else
        let! v := it_deref first in
        let! first := it_inc first in
        let! vs := walk_loop fuel first last in
        ret (v :: vs)
    end.
  Definition lst_walk (o : lst_obj) : ML (list V) :=
    let! b := lst_begin o in
    let! e := lst_end o in
    let! fuel := heap_fuel in
    walk_loop fuel b e.
  Fixpoint rwalk_loop (fuel : nat) (first last : addr) : ML (list V) :=
    match fuel with
    | 0 => fail FFuel
    | S fuel =>
        let! q := it_eq first last in
        if (q : bool) then ret [] else
        let! tmp := it_dec first in
        let! v := it_deref tmp in
        let! first := it_dec first in
        let! vs := rwalk_loop fuel first last in
        ret (v :: vs)
    end.
  Definition lst_rwalk (o : lst_obj) : ML (list V) :=
    let! e := lst_end o in
    let! b := lst_begin o in
    let! fuel := heap_fuel in
    rwalk_loop fuel e b.

  (** ** Modifiers *)

  (** list.hpp:951-968 *)
  Definition lst_emplace (o : lst_obj) (pos : addr) (x : larg V) : ML addr :=
    let! r := create_node o x in
    let! e := has_err in
    if (e : bool) then lst_end o else
    match r with
    | None => fail FNull
    | Some n =>
        do! init_empty n in
        do! check_node n in
        let! p := it_node pos in
        do! inject n p in
        mk_iter n
    end.
  (** list.hpp:901-915 *)
  Definition lst_insert := lst_emplace.

  (** list.hpp:917-932 *)
  Fixpoint lst_insert_n (o : lst_obj) (pos : addr) (count : nat) (x : larg V) : ML unit :=
    match count with
    | 0 => ret tt
    | S count =>
        let! pos := lst_insert o pos x in
        let! e := has_err in
        if (e : bool) then ret tt else
        lst_insert_n o pos count x
    end.

  (** list.hpp:934-949; the input range is the sequence of values it yields *)
  Fixpoint lst_insert_range (o : lst_obj) (pos : addr) (xs : list (larg V)) : ML unit :=
    match xs with
    | [] => ret tt
    | x :: xs =>
        let! pos := lst_insert o pos x in
        let! e := has_err in
        if (e : bool) then ret tt else
        lst_insert_range o pos xs
    end.

  (** list.hpp:970-983 *)
  Definition lst_erase (o : lst_obj) (pos : addr) : ML addr :=
    let! node := it_node pos in
    let! n := get_next node in
    let! r := mk_iter n in
    do! node_remove node in
    do! destroy_value node in
    do! deallocate_node (l_alloc o) node in
    ret r.

  (** list.hpp:985-995.  Returns a node pointer where an iterator is declared
      (does not compile); modelled as intended. *)
  Fixpoint erase_range_loop (fuel : nat) (o : lst_obj) (first last : addr) : ML addr :=
    match fuel with
    | 0 => fail FFuel
    | S fuel =>
        let! q := it_eq first last in
        if (q : bool) then mk_iter last else
        let! first := lst_erase o first in
        erase_range_loop fuel o first last
    end.
  Definition lst_erase_range (o : lst_obj) (first last : addr) : ML addr :=
    let! fuel := heap_fuel in
    erase_range_loop fuel o first last.

  (** list.hpp:997-1021 *)
  Definition lst_push_back (o : lst_obj) (x : larg V) : ML unit :=
    let! e := lst_end o in
    do! lst_insert o e x in
    ret tt.
  (** list.hpp:1030-1050 *)
  Definition lst_push_front (o : lst_obj) (x : larg V) : ML unit :=
    let! b := lst_begin o in
    do! lst_insert o b x in
    ret tt.
  (** list.hpp:1023-1028 *)
  Definition lst_pop_back (o : lst_obj) : ML unit :=
    let! p := get_prev (l_hdr o) in
    let! i := mk_iter p in
    do! lst_erase o i in
    ret tt.
  (** list.hpp:1052-1057 *)
  Definition lst_pop_front (o : lst_obj) : ML unit :=
    let! b := lst_begin o in
    do! lst_erase o b in
    ret tt.

  (** list.hpp:714-732.  The temporary takes the old contents and is destroyed
      when the function returns; it has a default constructed allocator. *)
  Fixpoint push_n_loop (o : lst_obj) (n : nat) (x : larg V) : ML unit :=
    match n with
    | 0 => ret tt
    | S n =>
        do! lst_push_back o x in
        let! e := has_err in
        if (e : bool) then ret tt else
        push_n_loop o n x
    end.
  Definition lst_assign_n (o : lst_obj) (n : nat) (x : larg V) : ML unit :=
    let! tmp := lst_new (c_dflt cf) in
    do! lst_swap tmp o in
    do! push_n_loop o n x in
    lst_destroy tmp.

  (** list.hpp:735-751, for an input range given by the values it yields *)
  Fixpoint push_args_loop (o : lst_obj) (xs : list (larg V)) : ML unit :=
    match xs with
    | [] => ret tt
    | x :: xs =>
        do! lst_push_back o x in
        let! e := has_err in
        if (e : bool) then ret tt else
        push_args_loop o xs
    end.
  Definition lst_assign_args (o : lst_obj) (xs : list (larg V)) : ML unit :=
    let! tmp := lst_new (c_dflt cf) in
    do! lst_swap tmp o in
    do! push_args_loop o xs in
    lst_destroy tmp.

  (** list.hpp:735-751, for a range of list iterators *)
  Fixpoint push_nodes_loop (fuel : nat) (o : lst_obj) (first last : addr) : ML unit :=
    match fuel with
    | 0 => fail FFuel
    | S fuel =>
        let! q := it_eq first last in
        if (q : bool) then ret tt else
        do! check_node first in   (* *first *)
        do! lst_push_back o (LARef first) in
        let! e := has_err in
        if (e : bool) then ret tt else
        let! first := it_inc first in
        push_nodes_loop fuel o first last
    end.
  Definition lst_assign_nodes (o : lst_obj) (first last : addr) : ML unit :=
    let! tmp := lst_new (c_dflt cf) in
    do! lst_swap tmp o in
    let! fuel := heap_fuel in
    do! push_nodes_loop fuel o first last in
    lst_destroy tmp.

  (** list.hpp:706-712 *)
  Definition lst_copy (o other : lst_obj) : ML unit :=
    let! b := lst_begin other in
    let! e := lst_end other in
    lst_assign_nodes o b e.

  (** ** Operations *)

  (** list.hpp:1292-1299 *)
  Definition lst_transfer (pos first last : addr) : ML unit :=
    let! p := it_node pos in
    let! f := it_node first in
    let! l := it_node last in
    transfer p f l.

  (** list.hpp:1068-1121 *)
  Fixpoint merge_loop (fuel : nat) (comp : V -> V -> bool) (first1 last1 first2 last2 : addr) : ML (addr * addr) :=
    match fuel with
    | 0 => fail FFuel
    | S fuel =>
        let! q1 := it_eq first1 last1 in
        if (q1 : bool) then ret (first1, first2) else
        let! q2 := it_eq first2 last2 in
        if (q2 : bool) then ret (first1, first2) else
        let! v2 := it_deref first2 in
        let! v1 := it_deref first1 in
        if comp v2 v1 then
          let! next := it_inc first2 in
          do! lst_transfer first1 first2 next in
          merge_loop fuel comp first1 last1 next last2
        else
          let! first1 := it_inc first1 in
          merge_loop fuel comp first1 last1 first2 last2
    end.
  Definition lst_merge (comp : V -> V -> bool) (o other : lst_obj) : ML unit :=
    do! assert_ cf (negb (bool_decide (l_hdr o = l_hdr other))) in
    let! first1 := lst_begin o in
    let! last1 := lst_end o in
    let! first2 := lst_begin other in
    let! last2 := lst_end other in
    let! fuel := heap_fuel in
    let! r := merge_loop fuel comp first1 last1 first2 last2 in
    let! q := it_eq r.2 last2 in
    if (q : bool) then ret tt else lst_transfer last1 r.2 last2.

  (** list.hpp:1123-1138 *)
  Definition lst_splice (o : lst_obj) (pos : addr) (other : lst_obj) : ML unit :=
    let! e := lst_empty other in
    if (e : bool) then ret tt else
    let! b := lst_begin other in
    let! e := lst_end other in
    lst_transfer pos b e.
  (** list.hpp:1140-1159 *)
  Definition lst_splice_one (pos it : addr) : ML unit :=
    let! n := it_node it in
    let! j := mk_iter n in
    let! j := it_inc j in
    let! q1 := it_eq pos it in
    if (q1 : bool) then ret tt else
    let! q2 := it_eq pos j in
    if (q2 : bool) then ret tt else
    lst_transfer pos it j.
  (** list.hpp:1161-1176 *)
  Definition lst_splice_range (pos first last : addr) : ML unit :=
    let! q := it_eq first last in
    if (q : bool) then ret tt else
    lst_transfer pos first last.

  (** list.hpp:1178-1225.  [tmp] is the array of 64 lists; reaching past its
      end is a fault. *)
  Definition bin (tmp : list lst_obj) (i : nat) : ML lst_obj :=
    match tmp !! i with Some o => ret o | None => fail FBounds end.

  Fixpoint new_lists (n : nat) : ML (list lst_obj) :=
    match n with
    | 0 => ret []
    | S n =>
        let! o := lst_new (c_dflt cf) in
        let! os := new_lists n in
        ret (o :: os)
    end.
  Fixpoint destroy_lists (os : list lst_obj) : ML unit :=
    match os with
    | [] => ret tt
    | o :: os =>
        do! lst_destroy o in
        destroy_lists os
    end.

  (** the for loop, list.hpp:1204-1208; returns counter *)
  Fixpoint carry_loop (fuel : nat) (comp : V -> V -> bool) (carry : lst_obj) (tmp : list lst_obj) (fill counter : nat) : ML nat :=
    match fuel with
    | 0 => fail FFuel
    | S fuel =>
        if decide (counter = fill) then ret counter else
        let! c := bin tmp counter in
        let! e := lst_empty c in
        if (e : bool) then ret counter else
        do! lst_merge comp c carry in
        do! lst_swap carry c in
        carry_loop fuel comp carry tmp fill (S counter)
    end.
  (** the do-while loop, list.hpp:1200-1216; returns fill *)
  Fixpoint sort_loop (fuel : nat) (comp : V -> V -> bool) (o carry : lst_obj) (tmp : list lst_obj) (fill : nat) : ML nat :=
    match fuel with
    | 0 => fail FFuel
    | S fuel =>
        let! cb := lst_begin carry in
        let! b := lst_begin o in
        do! lst_splice_one cb b in
        let! counter := carry_loop (S (length tmp)) comp carry tmp fill 0 in
        let! c := bin tmp counter in
        do! lst_swap carry c in
        let fill := if decide (counter = fill) then S fill else fill in
        let! e := lst_empty o in
        if (e : bool) then ret fill else
        sort_loop fuel comp o carry tmp fill
    end.
  (** the final for loop, list.hpp:1218-1221 *)
  Fixpoint fold_loop (fuel : nat) (comp : V -> V -> bool) (tmp : list lst_obj) (fill counter : nat) : ML unit :=
    match fuel with
    | 0 => fail FFuel
    | S fuel =>
        if decide (counter = fill) then ret tt else
        let! c := bin tmp counter in
        let! p := bin tmp (counter - 1) in
        do! lst_merge comp c p in
        fold_loop fuel comp tmp fill (S counter)
    end.
  Definition lst_sort (comp : V -> V -> bool) (o : lst_obj) : ML unit :=
    let! n1 := get_next (l_hdr o) in
    if decide (n1 = l_hdr o) then ret tt else
    let! n2 := get_next n1 in
    if decide (n2 = l_hdr o) then ret tt else
    let! carry := lst_new (c_dflt cf) in
    let! tmp := new_lists 64 in
    let! fuel := heap_fuel in
    let! fill := sort_loop fuel comp o carry tmp 0 in
    do! fold_loop (S (length tmp)) comp tmp fill 1 in
    let! last := bin tmp (fill - 1) in
    do! lst_swap o last in
    do! destroy_lists (rev tmp) in
    lst_destroy carry.

  (** list.hpp:638-663 *)
  Fixpoint leq_loop (fuel : nat) (eqv : V -> V -> bool) (leftIt leftEnd rightIt : addr) : ML bool :=
    match fuel with
    | 0 => fail FFuel
    | S fuel =>
        let! q := it_eq leftIt leftEnd in
        if (q : bool) then ret true else
        let! a := it_deref leftIt in
        let! b := it_deref rightIt in
        if eqv a b then
          let! leftIt := it_inc leftIt in
          let! rightIt := it_inc rightIt in
          leq_loop fuel eqv leftIt leftEnd rightIt
        else ret false
    end.
  Definition lst_equal (eqv : V -> V -> bool) (l r : lst_obj) : ML bool :=
    let! n := lst_size l in
    let! m := lst_size r in
    if decide (n <> m) then ret false else
    let! li := lst_begin l in
    let! le := lst_end l in
    let! ri := lst_begin r in
    let! fuel := heap_fuel in
    leq_loop fuel eqv li le ri.

  (** ** The exception-enabled flavour (has_exceptions/list.hpp); [inr e]:
      e is thrown *)

  (** has_exceptions/list.hpp:49-57.  When it throws, the base subobject
      (already constructed) is destroyed. *)
  Definition hlst_copy_ctor (other : lst_obj) : ML (lst_obj + error) :=
    let! o := lst_new (c_dflt cf) in
    let! r := with_local_err (lst_copy o other) in
    match r.2 with
    | None => ret (inl o)
    | Some e =>
        do! lst_destroy o in
        ret (inr e)
    end.
  (** has_exceptions/list.hpp:59-65 *)
  Definition hlst_copy_assign (o other : lst_obj) : ML (option error) :=
    let! r := hlst_copy_ctor other in
    match r with
    | inr e => ret (Some e)
    | inl tmp =>
        do! lst_swap o tmp in
        do! lst_destroy tmp in
        ret None
    end.
  (** has_exceptions/list.hpp:103-121 *)
  Definition hlst_push_back (o : lst_obj) (x : larg V) : ML (option error) :=
    let! r := with_local_err (lst_push_back o x) in
    ret r.2.

  (** two_phase_initializator<impl::list>::init, list.hpp:621-633 *)
  Definition lst_two_phase_init (o other : lst_obj) : ML unit := lst_copy o other.
End list.
