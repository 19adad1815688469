(** * Model of the red-black tree and of nestl::set

    nestl/implementation/detail/red_black_tree.hpp (below: rbt.hpp) and
    nestl/implementation/set.hpp.  Keys and values coincide, as they do in set
    (KeyOfValue is identity, set.hpp:15-27); the comparator is a function
    [comp] without state. *)

From Verif Require Export Base.

(** rbt.hpp:27-31 *)
Inductive color := Red | Black.
#[global] Instance color_eq_dec : EqDecision color.
Proof. solve_decision. Defined.

(** What a cell holds besides color and links: for the header (the member
    m_header of the tree object, rbt.hpp:755-798) the member m_node_count beside
    it; for a node (rbt.hpp:85-107) the storage of a value, raw or live,
    obtained from some allocator.  m_node_count is a natural number: that it
    stays below 2^64 is taken for granted. *)
Inductive tbody (V : Type) :=
| THead (n : nat)
| TNode (al : alloc_id) (v : option V).
Arguments THead {V}.
Arguments TNode {V}.

(** rbt.hpp:33-41.  A field that has not been initialised is [None]; a
    null pointer is [Some None]. *)
Record tcell (V : Type) := TCell {
  tn_color : option color;
  tn_parent : option (option addr);
  tn_left : option (option addr);
  tn_right : option (option addr);
  tn_body : tbody V
}.
Arguments TCell {V}.
Arguments tn_color {V}.
Arguments tn_parent {V}.
Arguments tn_left {V}.
Arguments tn_right {V}.
Arguments tn_body {V}.

#[global] Instance tbody_eq_dec {V} `{EqDecision V} : EqDecision (tbody V).
Proof. solve_decision. Defined.
#[global] Instance tcell_eq_dec {V} `{EqDecision V} : EqDecision (tcell V).
Proof. solve_decision. Defined.

(** A tree object: its node allocator and the address of the header. *)
Record tset := TSet {
  t_alloc : alloc_id;
  t_hdr : addr
}.
#[global] Instance tset_eq_dec : EqDecision tset.
Proof. solve_decision. Defined.

(** A key or value argument: a temporary, or a reference to an element. *)
Inductive targ (V : Type) :=
| TAVal (v : V)
| TARef (a : addr).
Arguments TAVal {V}.
Arguments TARef {V}.

(** How many rounds a loop up or down a tree may take, depending on the number
    of cells there are.  The code has no such limit; in the model a loop that
    exceeds it is a fault.  A limit allows at least what a balanced tree needs.
    By default it is more than any walk without a cycle takes; properties hold
    for smaller limits as well (C77). *)
Class limit := Limit {
  rounds : nat -> nat;
  rounds_ok : forall n, 2 * Nat.log2 n < rounds n
}.
Lemma linear_ok n : 2 * Nat.log2 n < S (S n).
Proof.
  destruct n as [|n]; [simpl; lia|]. destruct (Nat.log2_spec (S n)) as [Hl _]; [lia|].
  assert (forall k, 2 * k <= S (2 ^ k)) as Hk.
  { induction k as [|[|[|k]] IH]; simpl in *; lia. }
  specialize (Hk (Nat.log2 (S n))). lia.
Qed.
#[global] Instance linear : limit | 100 := Limit (fun n => S (S n)) linear_ok.

Section tree.
  Context {V : Type} {L : limit} (cf : cfg V) (comp : V -> V -> bool).
  Notation MT := (M (tcell V)).

  (** ** Fields *)

  Definition deref (p : option addr) : MT addr :=
    match p with Some a => ret a | None => fail FNull end.
  Definition get_field {A} (f : tcell V -> option A) (a : addr) : MT A :=
    let! c := load a in
    match f c with Some x => ret x | None => fail FRaw end.
  Definition get_color : addr -> MT color := get_field tn_color.
  Definition get_parent : addr -> MT (option addr) := get_field tn_parent.
  Definition get_left : addr -> MT (option addr) := get_field tn_left.
  Definition get_right : addr -> MT (option addr) := get_field tn_right.
  Definition set_color (a : addr) (x : color) : MT unit :=
    let! c := load a in
    store a (TCell (Some x) (tn_parent c) (tn_left c) (tn_right c) (tn_body c)).
  Definition set_parent (a : addr) (p : option addr) : MT unit :=
    let! c := load a in
    store a (TCell (tn_color c) (Some p) (tn_left c) (tn_right c) (tn_body c)).
  Definition set_left (a : addr) (p : option addr) : MT unit :=
    let! c := load a in
    store a (TCell (tn_color c) (tn_parent c) (Some p) (tn_right c) (tn_body c)).
  Definition set_right (a : addr) (p : option addr) : MT unit :=
    let! c := load a in
    store a (TCell (tn_color c) (tn_parent c) (tn_left c) (Some p) (tn_body c)).

  (** [x->m_parent], dereferenced next *)
  Definition parent_of (a : addr) : MT addr := let! p := get_parent a in deref p.

  (** [p && p->m_color == rb_red] *)
  Definition is_red (p : option addr) : MT bool :=
    match p with
    | None => ret false
    | Some a => let! c := get_color a in ret (bool_decide (c = Red))
    end.
  (** [p == 0 || p->m_color == rb_black] *)
  Definition is_black (p : option addr) : MT bool :=
    match p with
    | None => ret true
    | Some a => let! c := get_color a in ret (bool_decide (c = Black))
    end.

  (** ** Values *)

  Definition tplace (a : addr) (v : V) : MT unit :=
    let! c := load a in
    match tn_body c with
    | THead _ => fail FBounds
    | TNode al None => store a (TCell (tn_color c) (tn_parent c) (tn_left c) (tn_right c) (TNode al (Some v)))
    | TNode _ (Some _) => fail FLive
    end.
  (** s_value, s_key, iterator::operator* (rbt.hpp:184-187, 863-873, 899-909) *)
  Definition tread (a : addr) : MT V :=
    let! c := load a in
    match tn_body c with
    | TNode _ (Some v) => ret v
    | _ => fail FRaw
    end.
  Definition toverwrite (a : addr) (v : V) : MT unit :=
    let! c := load a in
    match tn_body c with
    | TNode al (Some _) => store a (TCell (tn_color c) (tn_parent c) (tn_left c) (tn_right c) (TNode al (Some v)))
    | _ => fail FRaw
    end.
  Definition tdestroy_value (a : addr) : MT unit :=
    let! c := load a in
    match tn_body c with
    | TNode al (Some _) => store a (TCell (tn_color c) (tn_parent c) (tn_left c) (tn_right c) (TNode al None))
    | _ => fail FRaw
    end.
  Definition read_targ (x : targ V) : MT V :=
    match x with TAVal v => ret v | TARef a => tread a end.

  (** m_put_node, rbt.hpp:695-699.  The model insists on the same allocator and
      on the value having been destroyed. *)
  Definition put_node (al : alloc_id) (a : addr) : MT unit :=
    let! h := get_heap in
    match h !! a with
    | Some (TCell _ _ _ _ (TNode al' v)) =>
        if decide (al' <> al) then fail FAlloc else
        match v with
        | Some _ => fail FLive
        | None => free_cell a
        end
    | _ => fail FFree
    end.

  (** rbt.hpp:702-722.  Color and links of the new node are uninitialised. *)
  Definition tcreate_node (o : tset) (x : targ V) : MT (option addr) :=
    let! r := alloc_cell (TCell None None None None (TNode (t_alloc o) None)) in
    let! e := has_err in
    if (e : bool) then ret None else
    let! a := deref r in
    do! construct cf (tplace a) (toverwrite a) (tdestroy_value a) (read_targ x) in
    let! e := has_err in
    if (e : bool) then
      do! put_node (t_alloc o) a in   (* guard *)
      ret None
    else ret (Some a).

  (** rbt.hpp:724-730 *)
  Definition tdestroy_node (o : tset) (a : addr) : MT unit :=
    do! tdestroy_value a in
    put_node (t_alloc o) a.

  (** Fuel for a loop up or down a tree *)
  Definition tree_fuel : MT nat := let! h := get_heap in ret (rounds (size h)).
  (** Fuel for a walk over elements: no walk visits more cells than there are. *)
  Definition cell_fuel : MT nat := let! h := get_heap in ret (S (S (size h))).

  (** ** rb_tree_node_base *)

  (** rbt.hpp:43-62 *)
  Fixpoint minimum_loop (fuel : nat) (x : addr) : MT addr :=
    match fuel with
    | 0 => fail FFuel
    | S fuel =>
        let! l := get_left x in
        match l with
        | Some l => minimum_loop fuel l
        | None => ret x
        end
    end.
  Definition s_minimum (x : option addr) : MT addr :=
    do! assert_ cf (bool_decide (x <> None)) in
    let! x := deref x in
    let! fuel := tree_fuel in
    minimum_loop fuel x.

  (** rbt.hpp:64-81 *)
  Fixpoint maximum_loop (fuel : nat) (x : addr) : MT addr :=
    match fuel with
    | 0 => fail FFuel
    | S fuel =>
        let! r := get_right x in
        match r with
        | Some r => maximum_loop fuel r
        | None => ret x
        end
    end.
  Definition s_maximum (x : option addr) : MT addr :=
    do! assert_ cf (bool_decide (x <> None)) in
    let! x := deref x in
    let! fuel := tree_fuel in
    maximum_loop fuel x.

  (** rbt.hpp:122-127: climb while [x] is a right child *)
  Fixpoint inc_loop (fuel : nat) (x y : addr) : MT (addr * addr) :=
    match fuel with
    | 0 => fail FFuel
    | S fuel =>
        let! r := get_right y in
        if decide (r = Some x) then
          let! p := parent_of y in
          inc_loop fuel y p
        else ret (x, y)
    end.
  (** rbt.hpp:109-134 *)
  Definition rb_increment (x : addr) : MT addr :=
    let! r := get_right x in
    let! fuel := tree_fuel in
    match r with
    | Some r => minimum_loop fuel r
    | None =>
        let! y := parent_of x in
        let! q := inc_loop fuel x y in
        let! r := get_right q.1 in
        if decide (r <> Some q.2) then ret q.2 else ret q.1
    end.

  (** rbt.hpp:150-155 *)
  Fixpoint dec_loop (fuel : nat) (x y : addr) : MT addr :=
    match fuel with
    | 0 => fail FFuel
    | S fuel =>
        let! l := get_left y in
        if decide (l = Some x) then
          let! p := parent_of y in
          dec_loop fuel y p
        else ret y
    end.
  (** rbt.hpp:136-159 *)
  Definition rb_decrement (x : addr) : MT addr :=
    let! c := get_color x in
    let! hd := (if decide (c = Red) then
                  let! p := parent_of x in
                  let! pp := get_parent p in
                  ret (bool_decide (pp = Some x))
                else ret false) in
    if (hd : bool) then let! r := get_right x in deref r else
    let! l := get_left x in
    let! fuel := tree_fuel in
    match l with
    | Some y => maximum_loop fuel y
    | None =>
        let! y := parent_of x in
        dec_loop fuel x y
    end.

  (** ** Rotations *)

  (** rbt.hpp:348-365; [root] is a reference to the header's m_parent *)
  Definition rotate_left (hdr x : addr) : MT unit :=
    let! y := get_right x in
    let! y := deref y in
    let! yl := get_left y in
    do! set_right x yl in
    do! (match yl with Some b => set_parent b (Some x) | None => ret tt end) in
    let! p := get_parent x in
    do! set_parent y p in
    do! (let! root := get_parent hdr in
         if decide (root = Some x) then set_parent hdr (Some y) else
         let! p := parent_of x in
         let! l := get_left p in
         if decide (l = Some x) then set_left p (Some y) else set_right p (Some y)) in
    do! set_left y (Some x) in
    set_parent x (Some y).

  (** rbt.hpp:367-384 *)
  Definition rotate_right (hdr x : addr) : MT unit :=
    let! y := get_left x in
    let! y := deref y in
    let! yr := get_right y in
    do! set_left x yr in
    do! (match yr with Some b => set_parent b (Some x) | None => ret tt end) in
    let! p := get_parent x in
    do! set_parent y p in
    do! (let! root := get_parent hdr in
         if decide (root = Some x) then set_parent hdr (Some y) else
         let! p := parent_of x in
         let! r := get_right p in
         if decide (r = Some x) then set_right p (Some y) else set_left p (Some y)) in
    do! set_right y (Some x) in
    set_parent x (Some y).

  (** ** Insertion *)

  (** rbt.hpp:424-472 *)
  Fixpoint ins_loop (fuel : nat) (hdr x : addr) : MT unit :=
    match fuel with
    | 0 => fail FFuel
    | S fuel =>
        let! root := get_parent hdr in
        if decide (root = Some x) then ret tt else
        let! xp := parent_of x in
        let! c := get_color xp in
        if decide (c <> Red) then ret tt else
        let! xpp := parent_of xp in
        let! l := get_left xpp in
        if decide (l = Some xp) then
          let! y := get_right xpp in
          let! yr := is_red y in
          if (yr : bool) then
            do! set_color xp Black in
            let! y := deref y in
            do! set_color y Black in
            do! set_color xpp Red in
            ins_loop fuel hdr xpp
          else
            let! r := get_right xp in
            let! x := (if decide (r = Some x) then
                         do! rotate_left hdr xp in ret xp
                       else ret x) in
            let! xp := parent_of x in
            do! set_color xp Black in
            do! set_color xpp Red in
            do! rotate_right hdr xpp in
            ins_loop fuel hdr x
        else
          let! y := get_left xpp in
          let! yr := is_red y in
          if (yr : bool) then
            do! set_color xp Black in
            let! y := deref y in
            do! set_color y Black in
            do! set_color xpp Red in
            ins_loop fuel hdr xpp
          else
            let! l := get_left xp in
            let! x := (if decide (l = Some x) then
                         do! rotate_right hdr xp in ret xp
                       else ret x) in
            let! xp := parent_of x in
            do! set_color xp Black in
            do! set_color xpp Red in
            do! rotate_left hdr xpp in
            ins_loop fuel hdr x
    end.

  (** rbt.hpp:394-422 *)
  Definition ins_link (insert_left : bool) (x p hdr : addr) : MT unit :=
    do! set_parent x (Some p) in
    do! set_left x None in
    do! set_right x None in
    do! set_color x Red in
    if insert_left then
      do! set_left p (Some x) in
      if decide (p = hdr) then
        do! set_parent hdr (Some x) in
        set_right hdr (Some x)
      else
        let! l := get_left hdr in
        if decide (l = Some p) then set_left hdr (Some x) else ret tt
    else
      do! set_right p (Some x) in
      let! r := get_right hdr in
      if decide (r = Some p) then set_right hdr (Some x) else ret tt.

  (** rbt.hpp:387-474 *)
  Definition insert_and_rebalance (insert_left : bool) (x p hdr : addr) : MT unit :=
    do! ins_link insert_left x p hdr in
    let! fuel := tree_fuel in
    do! ins_loop fuel hdr x in
    let! root := get_parent hdr in
    let! root := deref root in
    set_color root Black.

  (** ** Removal *)

  (** rbt.hpp:483-554: take [z] out of the tree.  Returns x, x_parent: the
      place from where to rebalance. *)
  Definition erase_unlink (z hdr : addr) : MT (option addr * addr) :=
    let! zl := get_left z in
    let! zr := get_right z in
    match zl, zr with
    | Some zl, Some zr =>
        let! fuel := tree_fuel in
        let! y := minimum_loop fuel zr in
        let! x := get_right y in
        do! set_parent zl (Some y) in
        do! set_left y (Some zl) in
        let! xp := (if decide (y <> zr) then
                      let! yp := parent_of y in
                      do! (match x with Some x => set_parent x (Some yp) | None => ret tt end) in
                      do! set_left yp x in
                      do! set_right y (Some zr) in
                      do! set_parent zr (Some y) in
                      ret yp
                    else ret y) in
        do! (let! root := get_parent hdr in
             if decide (root = Some z) then set_parent hdr (Some y) else
             let! p := parent_of z in
             let! l := get_left p in
             if decide (l = Some z) then set_left p (Some y) else set_right p (Some y)) in
        let! p := get_parent z in
        do! set_parent y p in
        let! cy := get_color y in
        let! cz := get_color z in
        do! set_color y cz in
        do! set_color z cy in
        ret (x, xp)
    | _, _ =>
        let x := match zl with None => zr | Some _ => zl end in
        let! xp := parent_of z in
        do! (match x with Some x => set_parent x (Some xp) | None => ret tt end) in
        do! (let! root := get_parent hdr in
             if decide (root = Some z) then set_parent hdr x else
             let! p := parent_of z in
             let! l := get_left p in
             if decide (l = Some z) then set_left p x else set_right p x) in
        let! lm := get_left hdr in
        do! (if decide (lm = Some z) then
               let! r := get_right z in
               match r with
               | None => let! p := get_parent z in set_left hdr p
               | Some _ => let! m := s_minimum x in set_left hdr (Some m)
               end
             else ret tt) in
        let! rm := get_right hdr in
        do! (if decide (rm = Some z) then
               let! l := get_left z in
               match l with
               | None => let! p := get_parent z in set_right hdr p
               | Some _ => let! m := s_maximum x in set_right hdr (Some m)
               end
             else ret tt) in
        ret (x, xp)
    end.

  (** rbt.hpp:557-631; returns x *)
  Fixpoint erase_loop (fuel : nat) (hdr : addr) (x : option addr) (xp : addr) : MT (option addr) :=
    match fuel with
    | 0 => fail FFuel
    | S fuel =>
        let! root := get_parent hdr in
        if decide (x = root) then ret x else
        let! b := is_black x in
        if negb b then ret x else
        let! l := get_left xp in
        if decide (x = l) then
          let! w := get_right xp in
          let! w := deref w in
          let! c := get_color w in
          let! w := (if decide (c = Red) then
                       do! set_color w Black in
                       do! set_color xp Red in
                       do! rotate_left hdr xp in
                       let! w := get_right xp in deref w
                     else ret w) in
          let! wl := get_left w in
          let! bl := is_black wl in
          let! wr := get_right w in
          let! br := (if (bl : bool) then is_black wr else ret false) in
          if (bl && br) then
            do! set_color w Red in
            let! p := parent_of xp in
            erase_loop fuel hdr (Some xp) p
          else
            let! br := is_black wr in
            let! w := (if (br : bool) then
                         let! wl := deref wl in
                         do! set_color wl Black in
                         do! set_color w Red in
                         do! rotate_right hdr w in
                         let! w := get_right xp in deref w
                       else ret w) in
            let! c := get_color xp in
            do! set_color w c in
            do! set_color xp Black in
            let! wr := get_right w in
            do! (match wr with Some wr => set_color wr Black | None => ret tt end) in
            do! rotate_left hdr xp in
            ret x
        else
          let! w := get_left xp in
          let! w := deref w in
          let! c := get_color w in
          let! w := (if decide (c = Red) then
                       do! set_color w Black in
                       do! set_color xp Red in
                       do! rotate_right hdr xp in
                       let! w := get_left xp in deref w
                     else ret w) in
          let! wr := get_right w in
          let! br := is_black wr in
          let! wl := get_left w in
          let! bl := (if (br : bool) then is_black wl else ret false) in
          if (br && bl) then
            do! set_color w Red in
            let! p := parent_of xp in
            erase_loop fuel hdr (Some xp) p
          else
            let! bl := is_black wl in
            let! w := (if (bl : bool) then
                         let! wr := deref wr in
                         do! set_color wr Black in
                         do! set_color w Red in
                         do! rotate_left hdr w in
                         let! w := get_left xp in deref w
                       else ret w) in
            let! c := get_color xp in
            do! set_color w c in
            do! set_color xp Black in
            let! wl := get_left w in
            do! (match wl with Some wl => set_color wl Black | None => ret tt end) in
            do! rotate_right hdr xp in
            ret x
    end.

  (** rbt.hpp:476-635; returns z, the node to be deleted *)
  Definition rebalance_for_erase (z hdr : addr) : MT addr :=
    let! r := erase_unlink z hdr in
    let! c := get_color z in
    do! (if decide (c <> Red) then
           let! fuel := tree_fuel in
           let! x := erase_loop fuel hdr r.1 r.2 in
           match x with Some x => set_color x Black | None => ret tt end
         else ret tt) in
    ret z.

  (** ** The tree object *)

  (** m_node_count *)
  Definition get_count (o : tset) : MT nat :=
    let! c := load (t_hdr o) in
    match tn_body c with THead n => ret n | _ => fail FRaw end.
  Definition set_count (o : tset) (n : nat) : MT unit :=
    let! c := load (t_hdr o) in
    store (t_hdr o) (TCell (tn_color c) (tn_parent c) (tn_left c) (tn_right c) (THead n)).

  (** rbt.hpp:761-797, 994-1007; set.hpp:143-153: a fresh tree object *)
  Definition tset_new (al : alloc_id) : MT tset :=
    let! a := new_local (TCell None None None None (THead 0)) in
    do! set_color a Red in
    do! set_parent a None in
    do! set_left a (Some a) in
    do! set_right a (Some a) in
    ret (TSet al a).

  (** begin(), end(): rbt.hpp:1085-1103, set.hpp:196-236 *)
  Definition t_begin (o : tset) : MT addr :=
    let! l := get_left (t_hdr o) in deref l.
  Definition t_end (o : tset) : addr := t_hdr o.

  (** rbt.hpp:1125-1132, set.hpp:282-294 *)
  Definition t_empty (o : tset) : MT bool :=
    let! n := get_count o in ret (bool_decide (n = 0)).
  Definition t_size (o : tset) : MT nat := get_count o.

  (** rbt.hpp:1539-1550; the loop is a tail call *)
  Fixpoint erase_sub (fuel : nat) (o : tset) (x : option addr) : MT unit :=
    match fuel with
    | 0 => fail FFuel
    | S fuel =>
        match x with
        | None => ret tt
        | Some x =>
            let! r := get_right x in
            do! erase_sub fuel o r in
            let! y := get_left x in
            do! tdestroy_node o x in
            erase_sub fuel o y
        end
    end.
  Definition m_erase (o : tset) (x : option addr) : MT unit :=
    let! fuel := tree_fuel in
    erase_sub fuel o x.

  (** rbt.hpp:1222-1230, set.hpp:305-310 *)
  Definition t_clear (o : tset) : MT unit :=
    let! root := get_parent (t_hdr o) in
    do! m_erase o root in
    do! set_left (t_hdr o) (Some (t_hdr o)) in
    do! set_parent (t_hdr o) None in
    do! set_right (t_hdr o) (Some (t_hdr o)) in
    set_count o 0.

  (** rbt.hpp:1026-1029; the storage of the tree object itself goes away. *)
  Definition t_destroy (o : tset) : MT unit :=
    let! root := get_parent (t_hdr o) in
    do! m_erase o root in
    free_cell (t_hdr o).

  (** ** Lookup *)

  (** rbt.hpp:1552-1586 *)
  Fixpoint lower_loop (fuel : nat) (x : option addr) (y : addr) (k : targ V) : MT addr :=
    match fuel with
    | 0 => fail FFuel
    | S fuel =>
        match x with
        | None => ret y
        | Some x =>
            let! kx := tread x in
            let! k' := read_targ k in
            if negb (comp kx k') then
              let! l := get_left x in
              lower_loop fuel l x k
            else
              let! r := get_right x in
              lower_loop fuel r y k
        end
    end.
  Definition m_lower_bound (x : option addr) (y : addr) (k : targ V) : MT addr :=
    let! fuel := tree_fuel in
    lower_loop fuel x y k.
  (** rbt.hpp:1242-1248 *)
  Definition lower_bound (o : tset) (k : targ V) : MT addr :=
    let! root := get_parent (t_hdr o) in
    m_lower_bound root (t_end o) k.

  (** rbt.hpp:1588-1622 *)
  Fixpoint upper_loop (fuel : nat) (x : option addr) (y : addr) (k : targ V) : MT addr :=
    match fuel with
    | 0 => fail FFuel
    | S fuel =>
        match x with
        | None => ret y
        | Some x =>
            let! kx := tread x in
            let! k' := read_targ k in
            if comp k' kx then
              let! l := get_left x in
              upper_loop fuel l x k
            else
              let! r := get_right x in
              upper_loop fuel r y k
        end
    end.
  Definition m_upper_bound (x : option addr) (y : addr) (k : targ V) : MT addr :=
    let! fuel := tree_fuel in
    upper_loop fuel x y k.
  (** rbt.hpp:1250-1256 *)
  Definition upper_bound (o : tset) (k : targ V) : MT addr :=
    let! root := get_parent (t_hdr o) in
    m_upper_bound root (t_end o) k.

  (** rbt.hpp:1624-1678 *)
  Fixpoint equal_range_loop (fuel : nat) (x : option addr) (y : addr) (k : targ V) : MT (addr * addr) :=
    match fuel with
    | 0 => fail FFuel
    | S fuel =>
        match x with
        | None => ret (y, y)
        | Some x =>
            let! kx := tread x in
            let! k' := read_targ k in
            if comp kx k' then
              let! r := get_right x in
              equal_range_loop fuel r y k
            else if comp k' kx then
              let! l := get_left x in
              equal_range_loop fuel l x k
            else
              let! l := get_left x in
              let! r := get_right x in
              let! lo := m_lower_bound l x k in
              let! hi := m_upper_bound r y k in
              ret (lo, hi)
        end
    end.
  Definition equal_range (o : tset) (k : targ V) : MT (addr * addr) :=
    let! root := get_parent (t_hdr o) in
    let! fuel := tree_fuel in
    equal_range_loop fuel root (t_end o) k.

  (** rbt.hpp:2190-2204, set.hpp:345-357 *)
  Definition t_find (o : tset) (k : targ V) : MT addr :=
    let! j := lower_bound o k in
    if decide (j = t_end o) then ret (t_end o) else
    let! k' := read_targ k in
    let! kj := tread j in
    if comp k' kj then ret (t_end o) else ret j.

  (** std::distance *)
  Fixpoint distance (fuel : nat) (first last : addr) : MT nat :=
    match fuel with
    | 0 => fail FFuel
    | S fuel =>
        if decide (first = last) then ret 0 else
        let! first := rb_increment first in
        let! n := distance fuel first last in
        ret (S n)
    end.
  (** rbt.hpp:2206-2213 *)
  Definition t_count (o : tset) (k : targ V) : MT nat :=
    let! p := equal_range o k in
    let! fuel := cell_fuel in
    distance fuel p.1 p.2.

  (** ** Insertion into the tree object *)

  (** rbt.hpp:1732-1740: descend; returns x (null), y and comp *)
  Fixpoint unique_pos_loop (fuel : nat) (x : option addr) (y : addr) (c : bool) (k : targ V) : MT (addr * bool) :=
    match fuel with
    | 0 => fail FFuel
    | S fuel =>
        match x with
        | None => ret (y, c)
        | Some x =>
            let! k' := read_targ k in
            let! kx := tread x in
            let c := comp k' kx in
            let! x' := (if c then get_left x else get_right x) in
            unique_pos_loop fuel x' x c k
        end
    end.
  (** rbt.hpp:1726-1758 *)
  Definition insert_unique_pos (o : tset) (k : targ V) : MT (option addr * option addr) :=
    let! root := get_parent (t_hdr o) in
    let! fuel := tree_fuel in
    let! r := unique_pos_loop fuel root (t_end o) true k in
    let y := r.1 in
    let! b := t_begin o in
    if r.2 && bool_decide (y = b) then ret (None, Some y) else
    let! j := (if (r.2 : bool) then rb_decrement y else ret y) in
    let! kj := tread j in
    let! k' := read_targ k in
    if comp kj k' then ret (None, Some y) else ret (Some j, None).

  (** rbt.hpp:1405-1422 *)
  Definition m_insert (o : tset) (x : option addr) (p : addr) (v : targ V) : MT addr :=
    let! insert_left := (if decide (x <> None \/ p = t_end o) then ret true else
                         let! k := read_targ v in
                         let! kp := tread p in
                         ret (comp k kp)) in
    let! l := tcreate_node o v in
    let! e := has_err in
    if (e : bool) then ret (t_end o) else
    let! l := deref l in
    do! insert_and_rebalance insert_left l p (t_hdr o) in
    let! n := get_count o in
    do! set_count o (S n) in
    ret l.

  (** rbt.hpp:1776-1791, set.hpp:312-326 *)
  Definition insert_unique (o : tset) (v : targ V) : MT (addr * bool) :=
    let! res := insert_unique_pos o v in
    match res with
    | (x, Some p) => let! pos := m_insert o x p v in ret (pos, true)
    | (x, None) => let! x := deref x in ret (x, false)
    end.

  (** rbt.hpp:1802-1875 *)
  Definition insert_hint_unique_pos (o : tset) (pos : addr) (k : targ V) : MT (option addr * option addr) :=
    if decide (pos = t_end o) then
      let! n := t_size o in
      let! b := (if decide (0 < n) then
                   let! rm := get_right (t_hdr o) in
                   let! rm := deref rm in
                   let! kr := tread rm in
                   let! k' := read_targ k in
                   ret (comp kr k')
                 else ret false) in
      if (b : bool) then
        let! rm := get_right (t_hdr o) in ret (None, rm)
      else insert_unique_pos o k
    else
      let! k' := read_targ k in
      let! kp := tread pos in
      if comp k' kp then
        let! lm := get_left (t_hdr o) in
        if decide (lm = Some pos) then ret (lm, lm) else
        let! before := rb_decrement pos in
        let! kb := tread before in
        let! k' := read_targ k in
        if comp kb k' then
          let! r := get_right before in
          match r with
          | None => ret (None, Some before)
          | Some _ => ret (Some pos, Some pos)
          end
        else insert_unique_pos o k
      else
        let! kp := tread pos in
        let! k' := read_targ k in
        if comp kp k' then
          let! rm := get_right (t_hdr o) in
          if decide (rm = Some pos) then ret (None, rm) else
          let! after := rb_increment pos in
          let! k' := read_targ k in
          let! ka := tread after in
          if comp k' ka then
            let! r := get_right pos in
            match r with
            | None => ret (None, Some pos)
            | Some _ => ret (Some after, Some after)
            end
          else insert_unique_pos o k
        else ret (Some pos, None).

  (** rbt.hpp:1877-1889 *)
  Definition insert_unique_at (o : tset) (pos : addr) (v : targ V) : MT addr :=
    let! res := insert_hint_unique_pos o pos v in
    match res with
    | (x, Some p) => m_insert o x p v
    | (x, None) => deref x
    end.

  (** rbt.hpp:2116-2129, over a range of values *)
  Fixpoint insert_unique_range (o : tset) (vs : list (targ V)) : MT unit :=
    match vs with
    | [] => ret tt
    | v :: vs =>
        do! insert_unique_at o (t_end o) v in
        let! e := has_err in
        if (e : bool) then ret tt else insert_unique_range o vs
    end.

  (** rbt.hpp:1976-1985 *)
  Definition m_insert_node (o : tset) (x : option addr) (p z : addr) : MT addr :=
    let! insert_left := (if decide (x <> None \/ p = t_end o) then ret true else
                         let! kz := tread z in
                         let! kp := tread p in
                         ret (comp kz kp)) in
    do! insert_and_rebalance insert_left z p (t_hdr o) in
    let! n := get_count o in
    do! set_count o (S n) in
    ret z.

  (** rbt.hpp:2012-2032 *)
  Definition emplace_unique (o : tset) (v : targ V) : MT (addr * bool) :=
    let! z := tcreate_node o v in
    let! e := has_err in
    if (e : bool) then ret (t_end o, false) else
    let! z := deref z in
    let! res := insert_unique_pos o (TARef z) in
    match res with
    | (x, Some p) => let! it := m_insert_node o x p z in ret (it, true)
    | (x, None) =>
        do! tdestroy_node o z in
        let! x := deref x in ret (x, false)
    end.

  (** rbt.hpp:2058-2086 *)
  Definition emplace_hint_unique (o : tset) (pos : addr) (v : targ V) : MT addr :=
    let! z := tcreate_node o v in
    let! e := has_err in
    if (e : bool) then ret (t_end o) else
    let! z := deref z in
    let! res := insert_hint_unique_pos o pos (TARef z) in
    match res with
    | (x, Some p) => m_insert_node o x p z
    | (x, None) =>
        do! tdestroy_node o z in
        deref x
    end.

  (** ** Removal from the tree object *)

  (** rbt.hpp:2142-2151 *)
  Definition erase_aux (o : tset) (pos : addr) : MT unit :=
    let! y := rebalance_for_erase pos (t_hdr o) in
    do! tdestroy_node o y in
    let! n := get_count o in
    match n with
    | 0 => fail FCount
    | S n => set_count o n
    end.
  (** rbt.hpp:1191-1207, set.hpp:328-333 *)
  Definition t_erase (o : tset) (pos : addr) : MT addr :=
    let! result := rb_increment pos in
    do! erase_aux o pos in
    ret result.

  (** rbt.hpp:2163-2166 *)
  Fixpoint erase_range_loop (fuel : nat) (o : tset) (first last : addr) : MT unit :=
    match fuel with
    | 0 => fail FFuel
    | S fuel =>
        if decide (first = last) then ret tt else
        let! next := rb_increment first in
        do! t_erase o first in
        erase_range_loop fuel o next last
    end.
  (** rbt.hpp:1212-1217, 2153-2168 *)
  Definition t_erase_range (o : tset) (first last : addr) : MT addr :=
    let! b := t_begin o in
    do! (if decide (first = b /\ last = t_end o) then t_clear o else
         let! fuel := cell_fuel in
         erase_range_loop fuel o first last) in
    ret last.

  (** rbt.hpp:2170-2178, set.hpp:335-340 *)
  Definition t_erase_key (o : tset) (k : targ V) : MT nat :=
    let! p := equal_range o k in
    let! old := t_size o in
    do! t_erase_range o p.1 p.2 in
    let! new := t_size o in
    ret (old - new).

  (** rbt.hpp:2180-2188, over an array of keys *)
  Fixpoint t_erase_keys (o : tset) (ks : list (targ V)) : MT unit :=
    match ks with
    | [] => ret tt
    | k :: ks => do! t_erase_key o k in t_erase_keys o ks
    end.

  (** ** Copy, move, swap *)

  (** rbt.hpp:732-747 *)
  Definition clone_node (o : tset) (x : addr) : MT (option addr) :=
    let! l := tcreate_node o (TARef x) in
    let! e := has_err in
    if (e : bool) then ret None else
    let! l := deref l in
    let! c := get_color x in
    do! set_color l c in
    do! set_left l None in
    do! set_right l None in
    ret (Some l).

  (** rbt.hpp:1458-1536; [copy_loop] is the loop 1514-1533.  The guard's
      destructor erases what hangs below [top]. *)
  Fixpoint m_copy (fuel : nat) (o : tset) (x p : addr) {struct fuel} : MT (option addr) :=
    match fuel with
    | 0 => fail FFuel
    | S fuel =>
        let! top := clone_node o x in
        let! e := has_err in
        if (e : bool) then ret None else
        let! top := deref top in
        do! set_parent top (Some p) in
        let! r := get_right x in
        let! e := (match r with
                   | Some r =>
                       let! r' := m_copy fuel o r top in
                       do! set_right top r' in
                       has_err
                   | None => ret false
                   end) in
        if (e : bool) then do! m_erase o (Some top) in ret None else
        let! l := get_left x in
        copy_loop fuel o top top l
    end
  with copy_loop (fuel : nat) (o : tset) (top p : addr) (x : option addr) {struct fuel} : MT (option addr) :=
    match fuel with
    | 0 => fail FFuel
    | S fuel =>
        match x with
        | None => ret (Some top)
        | Some x =>
            let! y := clone_node o x in
            let! e := has_err in
            if (e : bool) then do! m_erase o (Some top) in ret None else
            let! y := deref y in
            do! set_left p (Some y) in
            do! set_parent y (Some p) in
            let! r := get_right x in
            let! e := (match r with
                       | Some r =>
                           let! r' := m_copy fuel o r y in
                           do! set_right y r' in
                           has_err
                       | None => ret false
                       end) in
            if (e : bool) then do! m_erase o (Some top) in ret None else
            let! l := get_left x in
            copy_loop fuel o top y l
        end
    end.

  (** rbt.hpp:1031-1077, set.hpp:186-192.  alloc_on_copy needs a traits member
      that nestl::allocator_traits lacks; modelled as not propagating.  The
      assignment of the comparator is not modelled. *)
  Definition t_copy (o other : tset) : MT unit :=
    if decide (t_hdr o = t_hdr other) then ret tt else
    do! t_clear o in
    let! e := has_err in
    if (e : bool) then ret tt else
    let! oroot := get_parent (t_hdr other) in
    match oroot with
    | None => ret tt
    | Some oroot =>
        let! fuel := tree_fuel in
        let! link := m_copy fuel o oroot (t_end o) in
        let! e := has_err in
        if (e : bool) then ret tt else
        do! set_parent (t_hdr o) link in
        let! root := get_parent (t_hdr o) in
        let! lm := s_minimum root in
        do! set_left (t_hdr o) (Some lm) in
        let! rm := s_maximum root in
        do! set_right (t_hdr o) (Some rm) in
        let! n := get_count other in
        set_count o n
    end.

  (** rbt.hpp:1349-1364 *)
  Definition move_data (o x : tset) : MT unit :=
    let! root := get_parent (t_hdr x) in
    do! set_parent (t_hdr o) root in
    let! lm := get_left (t_hdr x) in
    do! set_left (t_hdr o) lm in
    let! rm := get_right (t_hdr x) in
    do! set_right (t_hdr o) rm in
    let! root := parent_of (t_hdr o) in
    do! set_parent root (Some (t_end o)) in
    do! set_parent (t_hdr x) None in
    do! set_left (t_hdr x) (Some (t_end x)) in
    do! set_right (t_hdr x) (Some (t_end x)) in
    let! n := get_count x in
    do! set_count o n in
    set_count x 0.

  (** rbt.hpp:1009-1016, set.hpp:155-159 *)
  Definition t_move_ctor (x : tset) : MT tset :=
    let! o := tset_new (t_alloc x) in
    let! root := get_parent (t_hdr x) in
    do! (match root with Some _ => move_data o x | None => ret tt end) in
    ret o.

  (** rbt.hpp:1383-1402, set.hpp:170-184, for equal allocators (the other
      branch calls a function set does not have).  The traits members it needs
      do not exist in nestl::allocator_traits either; modelled as intended. *)
  Definition t_move_assign (o x : tset) : MT unit :=
    do! t_clear o in
    let! root := get_parent (t_hdr x) in
    match root with Some _ => move_data o x | None => ret tt end.

  (** rbt.hpp:1680-1724; allocators and comparators stay (the hook
      _S_on_swap does not exist in nestl::allocator_traits) *)
  Definition t_swap (o t : tset) : MT unit :=
    let! root := get_parent (t_hdr o) in
    let! troot := get_parent (t_hdr t) in
    do! (match root with
         | None =>
             match troot with
             | Some _ =>
                 do! set_parent (t_hdr o) troot in
                 let! lm := get_left (t_hdr t) in
                 do! set_left (t_hdr o) lm in
                 let! rm := get_right (t_hdr t) in
                 do! set_right (t_hdr o) rm in
                 let! r := parent_of (t_hdr o) in
                 do! set_parent r (Some (t_end o)) in
                 do! set_parent (t_hdr t) None in
                 do! set_left (t_hdr t) (Some (t_end t)) in
                 set_right (t_hdr t) (Some (t_end t))
             | None => ret tt
             end
         | Some _ =>
             match troot with
             | None =>
                 do! set_parent (t_hdr t) root in
                 let! lm := get_left (t_hdr o) in
                 do! set_left (t_hdr t) lm in
                 let! rm := get_right (t_hdr o) in
                 do! set_right (t_hdr t) rm in
                 let! r := parent_of (t_hdr t) in
                 do! set_parent r (Some (t_end t)) in
                 do! set_parent (t_hdr o) None in
                 do! set_left (t_hdr o) (Some (t_end o)) in
                 set_right (t_hdr o) (Some (t_end o))
             | Some _ =>
                 do! set_parent (t_hdr o) troot in
                 do! set_parent (t_hdr t) root in
                 let! lm := get_left (t_hdr o) in
                 let! tlm := get_left (t_hdr t) in
                 do! set_left (t_hdr o) tlm in
                 do! set_left (t_hdr t) lm in
                 let! rm := get_right (t_hdr o) in
                 let! trm := get_right (t_hdr t) in
                 do! set_right (t_hdr o) trm in
                 do! set_right (t_hdr t) rm in
                 let! r := parent_of (t_hdr o) in
                 do! set_parent r (Some (t_end o)) in
                 let! r := parent_of (t_hdr t) in
                 set_parent r (Some (t_end t))
             end
         end) in
    let! n := get_count o in
    let! m := get_count t in
    do! set_count o m in
    set_count t n.
End tree.
