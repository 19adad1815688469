(** * Model of nestl::vector

    nestl/implementation/vector.hpp together with the storage helpers of
    nestl/allocator.hpp, nestl/detail/destroy.hpp and
    nestl/detail/uninitialised_copy.hpp, and the exception-enabled wrapper
    nestl/has_exceptions/vector.hpp. *)

From Verif Require Export Base.

(** A pointer to an element: null, or a slot of an allocated block.  C++ raw
    pointers [value_type*] (vector.hpp:40-41: iterators are raw pointers). *)
Inductive ptr :=
| Null
| Ptr (b : addr) (o : nat).
Arguments Ptr _%positive _%nat.

#[global] Instance ptr_eq_dec : EqDecision ptr.
Proof. solve_decision. Defined.

(** A block returned by allocate(): which allocator made it, the requested
    number of objects, how many objects really fit, and the live objects by
    slot number. *)
Record vblock (V : Type) := Block {
  b_alloc : alloc_id;
  b_req : nat;
  b_room : nat;
  b_live : gmap nat V
}.
Arguments Block {V}.
Arguments b_alloc {V}.
Arguments b_req {V}.
Arguments b_room {V}.
Arguments b_live {V}.

#[global] Instance vblock_eq_dec {V} `{EqDecision V} : EqDecision (vblock V).
Proof. solve_decision. Defined.

(** vector.hpp:171-175: the four data members. *)
Record vec_obj := Vec {
  m_allocator : alloc_id;
  m_start : ptr;
  m_finish : ptr;
  m_end_of_storage : ptr
}.

#[global] Instance vec_obj_eq_dec : EqDecision vec_obj.
Proof. solve_decision. Defined.

(** A constructor argument: a temporary, or a reference to an object in memory
    that is read only when the new element is constructed. *)
Inductive arg (V : Type) :=
| AVal (v : V)
| ARef (p : ptr).
Arguments AVal {V}.
Arguments ARef {V}.

(** size_t arithmetic wraps modulo 2^64. *)
Definition sz (n : nat) : nat := N.to_nat (wrap64 (N.of_nat n)).
(** [n] is representable as a size_t. *)
Definition fits (n : nat) : Prop := (N.of_nat n < 2^64)%N.

Section vector.
  Context {V : Type} (cf : cfg V).
  Notation MV := (M (vblock V)).

  (** ** Memory *)

  Definition load_block (b : addr) : MV (vblock V) := load b.

  (** Begin the lifetime of an object: ::new(ptr) T(...)
      (has_exceptions/detail/class_operations.hpp:24, 34). *)
  Definition place (p : ptr) (v : V) : MV unit :=
    match p with
    | Null => fail FNull
    | Ptr b o =>
        let! blk := load_block b in
        if decide (o < b_room blk)
        then match b_live blk !! o with
             | None => store b (Block (b_alloc blk) (b_req blk) (b_room blk) (<[o := v]> (b_live blk)))
             | Some _ => fail FLive
             end
        else fail FBounds
    end.

  (** [*p] *)
  Definition read (p : ptr) : MV V :=
    match p with
    | Null => fail FNull
    | Ptr b o =>
        let! blk := load_block b in
        if decide (o < b_room blk)
        then match b_live blk !! o with
             | Some v => ret v
             | None => fail FRaw
             end
        else fail FBounds
    end.

  (** Change of the value of a live object. *)
  Definition overwrite (p : ptr) (v : V) : MV unit :=
    match p with
    | Null => fail FNull
    | Ptr b o =>
        let! blk := load_block b in
        if decide (o < b_room blk)
        then match b_live blk !! o with
             | Some _ => store b (Block (b_alloc blk) (b_req blk) (b_room blk) (<[o := v]> (b_live blk)))
             | None => fail FRaw
             end
        else fail FBounds
    end.

  (** val->~Type() (nestl/detail/destroy.hpp:17-21) *)
  Definition destroy1 (p : ptr) : MV unit :=
    match p with
    | Null => fail FNull
    | Ptr b o =>
        let! blk := load_block b in
        if decide (o < b_room blk)
        then match b_live blk !! o with
             | Some _ => store b (Block (b_alloc blk) (b_req blk) (b_room blk) (delete o (b_live blk)))
             | None => fail FRaw
             end
        else fail FBounds
    end.

  (** Pointer arithmetic [p + n]: must stay within the block or point one past
      its end. *)
  Definition padd (p : ptr) (n : nat) : MV ptr :=
    match p with
    | Null => match n with 0 => ret Null | S _ => fail FBounds end
    | Ptr b o =>
        let! blk := load_block b in
        if decide (o + n <= b_room blk) then ret (Ptr b (o + n)) else fail FBounds
    end.
  (** [p - 1] *)
  Definition pdec (p : ptr) : MV ptr :=
    match p with
    | Ptr b (S o) => ret (Ptr b o)
    | _ => fail FBounds
    end.
  (** [q - p], std::distance(p, q) for raw pointers (non-negative case). *)
  Definition pdiff (q p : ptr) : MV nat :=
    match q, p with
    | Null, Null => ret 0
    | Ptr b o, Ptr b' o' =>
        if decide (b = b' /\ o' <= o) then ret (o - o') else fail FBounds
    | _, _ => fail FBounds
    end.
  (** [p <= q] *)
  Definition pleb (p q : ptr) : bool :=
    match p, q with
    | Null, Null => true
    | Ptr b o, Ptr b' o' => bool_decide (b = b' /\ o <= o')
    | _, _ => false
    end.
  (** [p < q] *)
  Definition pltb (p q : ptr) : bool :=
    match p, q with
    | Ptr b o, Ptr b' o' => bool_decide (b = b' /\ o < o')
    | _, _ => false
    end.

  (** Number of steps after which an incrementing loop bounded by [p] must
      have ended. *)
  Definition poff (p : ptr) : nat := match p with Null => 0 | Ptr _ o => o end.

  (** nestl/allocator.hpp:51-61: n * sizeof(value_type) is computed in size_t.
      Requests above the platform's limit fail; below, the environment
      decides. *)
  Definition allocate (al : alloc_id) (n : nat) : MV ptr :=
    let bytes := wrap64 (N.of_nat n * c_sizeof cf) in
    let room := N.to_nat (bytes / c_sizeof cf) in
    if decide (c_max cf < bytes)%N then
      do! tick_alloc in
      do! put_err (Some EBadAlloc) in
      ret Null
    else
    let! r := alloc_cell (Block al n room ∅) in
    ret (match r with Some a => Ptr a 0 | None => Null end).

  (** nestl/allocator.hpp:63-66: operator delete; null is ignored.  The model
      insists on the same allocator, the same n and no live object left. *)
  Definition deallocate (al : alloc_id) (p : ptr) (n : nat) : MV unit :=
    match p with
    | Null => ret tt
    | Ptr b o =>
        let! h := get_heap in
        match h !! b with
        | None => fail FFree
        | Some blk =>
            if decide (o <> 0 \/ b_req blk <> n) then fail FFree else
            if decide (b_alloc blk <> al) then fail FAlloc else
            if decide (b_live blk <> ∅) then fail FLive else
            free_cell b
        end
    end.

  (** nestl/detail/destroy.hpp:23-31 *)
  Fixpoint destroy_loop (fuel : nat) (first last : ptr) : MV unit :=
    match fuel with
    | 0 => fail FFuel
    | S fuel =>
        if decide (first = last) then ret tt else
        do! destroy1 first in
        let! first' := padd first 1 in
        destroy_loop fuel first' last
    end.
  Definition destroy (first last : ptr) : MV unit :=
    destroy_loop (S (poff last)) first last.

  (** Reading an argument when it is used. *)
  Definition read_arg (a : arg V) : MV V :=
    match a with AVal v => ret v | ARef p => read p end.

  (** class_operations::construct(err, p, args...).  The argument is read by
      the constructor or, for two-phase elements, by init() after the default
      construction. *)
  Definition construct_at (p : ptr) (a : arg V) : MV unit :=
    construct cf (place p) (overwrite p) (destroy1 p) (read_arg a).

  (** nestl/detail/uninitialised_copy.hpp:15-35.  [output] is the guard's
      m_first, [cur] its *m_last: on error the guard destroys [output, cur). *)
  Fixpoint uninitialised_copy_loop (fuel : nat) (first last output cur : ptr) : MV ptr :=
    match fuel with
    | 0 => fail FFuel
    | S fuel =>
        if decide (first = last) then ret cur else
        do! construct_at cur (ARef first) in
        let! e := has_err in
        if (e : bool) then
          do! destroy output cur in
          ret cur
        else
          let! first' := padd first 1 in
          let! cur' := padd cur 1 in
          uninitialised_copy_loop fuel first' last output cur'
    end.
  Definition uninitialised_copy (first last output : ptr) : MV ptr :=
    uninitialised_copy_loop (S (poff last)) first last output output.

  (** ** Observers *)

  (** vector.hpp:259-266 *)
  Definition vec_new (al : alloc_id) : vec_obj := Vec al Null Null Null.
  (** vector.hpp:499-504 *)
  Definition vec_size (v : vec_obj) : MV nat := pdiff (m_finish v) (m_start v).
  (** vector.hpp:534-539 *)
  Definition vec_capacity (v : vec_obj) : MV nat := pdiff (m_end_of_storage v) (m_start v).
  (** vector.hpp:493-497 *)
  Definition vec_empty (v : vec_obj) : bool := bool_decide (m_start v = m_finish v).
  (** vector.hpp:286-291 *)
  Definition vec_get_allocator (v : vec_obj) : alloc_id := m_allocator v.
  (** vector.hpp:409-414, 423-428 *)
  Definition vec_begin (v : vec_obj) : ptr := m_start v.
  (** vector.hpp:430-435, 444-449 *)
  Definition vec_end (v : vec_obj) : ptr := m_finish v.
  (** vector.hpp:345-359; the reference returned *)
  Definition vec_index (v : vec_obj) (i : nat) : MV ptr :=
    let! n := vec_size v in
    do! assert_ cf (bool_decide (i < n)) in
    padd (m_start v) i.
  (** [v\[i\]] used as a value *)
  Definition vec_at (v : vec_obj) (i : nat) : MV V :=
    let! p := vec_index v i in
    read p.
  (** vector.hpp:361-375: [*begin()] *)
  Definition vec_front (v : vec_obj) : MV V :=
    do! assert_ cf (negb (vec_empty v)) in
    read (m_start v).
  (** vector.hpp:377-391: [*rbegin()] reads the element before m_finish *)
  Definition vec_back (v : vec_obj) : MV V :=
    do! assert_ cf (negb (vec_empty v)) in
    let! p := pdec (m_finish v) in
    read p.
  (** vector.hpp:393-407 *)
  Definition vec_data (v : vec_obj) : MV ptr :=
    do! assert_ cf (negb (vec_empty v)) in
    ret (m_start v).

  (** ** Storage management *)

  (** vector.hpp:813-840.  The deallocation guard is written out: it runs
      deallocate(ptr, new_cap) on the error path and deallocate(null) after
      release(). *)
  Definition do_reserve (v : vec_obj) (new_cap : nat) : MV vec_obj :=
    let! p := allocate (m_allocator v) new_cap in
    let! e := has_err in
    if (e : bool) then ret v else
    let! _ := uninitialised_copy (m_start v) (m_finish v) p in
    let! e := has_err in
    if (e : bool) then
      do! deallocate (m_allocator v) p new_cap in
      ret v
    else
    let! current_size := vec_size v in
    do! destroy (m_start v) (m_finish v) in
    let! old_cap := pdiff (m_end_of_storage v) (m_start v) in
    do! deallocate (m_allocator v) (m_start v) old_cap in
    let! fin := padd p current_size in
    let! eos := padd p new_cap in
    do! deallocate (m_allocator v) Null new_cap in
    ret (Vec (m_allocator v) p fin eos).

  (** vector.hpp:513-532; max_size() is the largest size_t (lines 506-511) *)
  Definition vec_reserve (v : vec_obj) (new_cap : nat) : MV vec_obj :=
    let! cap := vec_capacity v in
    if decide (new_cap <= cap) then ret v else
    if decide (size_max < N.of_nat new_cap)%N then
      do! put_err (Some ELength) in
      ret v
    else do_reserve v new_cap.

  (** vector.hpp:541-550 *)
  Definition vec_shrink_to_fit (v : vec_obj) : MV vec_obj :=
    let! cap := vec_capacity v in
    let! n := vec_size v in
    if decide (n < cap) then do_reserve v n else ret v.

  (** vector.hpp:796-811 *)
  Definition grow (v : vec_obj) (required : nat) : MV vec_obj :=
    let! cap := vec_capacity v in
    let new_cap0 := Nat.div2 (sz (sz (cap + 1) * 3)) in
    let new_cap := if decide (new_cap0 < required) then required else new_cap0 in
    do! assert_ cf (bool_decide (cap < new_cap)) in
    vec_reserve v new_cap.

  (** vector.hpp:279-284 *)
  Definition vec_destroy (v : vec_obj) : MV unit :=
    do! destroy (m_start v) (m_finish v) in
    let! cap := pdiff (m_end_of_storage v) (m_start v) in
    deallocate (m_allocator v) (m_start v) cap.

  (** vector.hpp:553-558.  As written line 556 passes three arguments to
      destroy, which has no such overload, so clear() does not compile when
      used; the model reads it as destroy(m_start, m_finish). *)
  Definition vec_clear (v : vec_obj) : MV vec_obj :=
    do! destroy (m_start v) (m_finish v) in
    ret (Vec (m_allocator v) (m_start v) (m_start v) (m_end_of_storage v)).

  (** vector.hpp:638-644 *)
  Definition swap_data (v o : vec_obj) : vec_obj * vec_obj :=
    (Vec (m_allocator v) (m_start o) (m_finish o) (m_end_of_storage o),
     Vec (m_allocator o) (m_start v) (m_finish v) (m_end_of_storage v)).
  (** vector.hpp:629-634 *)
  Definition vec_swap (v o : vec_obj) : vec_obj * vec_obj :=
    swap_data (Vec (m_allocator o) (m_start v) (m_finish v) (m_end_of_storage v))
              (Vec (m_allocator v) (m_start o) (m_finish o) (m_end_of_storage o)).
  (** vector.hpp:269-277: returns (new object, moved-from object) *)
  Definition vec_move_ctor (o : vec_obj) : vec_obj * vec_obj :=
    swap_data (Vec (m_allocator o) Null Null Null) o.
  (** vector.hpp:293-299 and 646-652, [*this = std::move(other)] with two
      different objects; returns (this, other). *)
  Definition vec_move_assign (v o : vec_obj) : MV (vec_obj * vec_obj) :=
    let '(tmp, v1) := vec_move_ctor v in
    let '(v2, o2) := swap_data v1 o in
    do! vec_destroy tmp in
    ret (v2, o2).
  (** the same with [&other == this]: swap_data exchanges each member with itself *)
  Definition vec_move_assign_self (v : vec_obj) : MV vec_obj :=
    let '(tmp, v1) := vec_move_ctor v in
    do! vec_destroy tmp in
    ret v1.

  (** ** Insertion *)

  (** vector.hpp:719-728: shift the elements up by one, from the end.
      Returns false if a construction failed (line 725). *)
  Fixpoint shift_loop (fuel : nat) (val first : ptr) : MV bool :=
    match fuel with
    | 0 => fail FFuel
    | S fuel =>
        if decide (val = first) then ret true else
        let! old := pdec val in
        do! construct_at val (ARef old) in
        let! e := has_err in
        if (e : bool) then ret false else
        do! destroy old val in
        let! val' := pdec val in
        shift_loop fuel val' first
    end.

  (** vector.hpp:696-739; result: returned iterator and the vector object *)
  Definition insert_value (v : vec_obj) (pos : ptr) (a : arg V) : MV (ptr * vec_obj) :=
    do! assert_ cf (pleb (m_start v) pos) in
    do! assert_ cf (pleb pos (m_finish v)) in
    let! offset := pdiff pos (m_start v) in
    let! cap := vec_capacity v in
    let! n := vec_size v in
    let! r := (if decide (cap = n) then
                 let! v := grow v (sz (cap + 1)) in
                 let! e := has_err in
                 ret (v, e)
               else ret (v, false)) in
    let '(v, e) := r in
    if (e : bool) then ret (vec_end v, v) else
    let! cap := vec_capacity v in
    let! n := vec_size v in
    do! assert_ cf (bool_decide (n < cap)) in
    let last := m_finish v in
    let! first := padd (m_start v) offset in
    let! ok := shift_loop (S (poff last)) last first in
    if negb ok then ret (vec_end v, v) else
    do! construct_at first a in
    let! e := has_err in
    if (e : bool) then ret (vec_end v, v) else
    let! fin := padd (m_finish v) 1 in
    ret (first, Vec (m_allocator v) (m_start v) fin (m_end_of_storage v)).

  (** vector.hpp:560-574 *)
  Definition vec_insert (v : vec_obj) (pos : ptr) (a : arg V) : MV (ptr * vec_obj) :=
    insert_value v pos a.
  (** vector.hpp:588-603 *)
  Definition vec_push_back (v : vec_obj) (a : arg V) : MV vec_obj :=
    let! r := vec_insert v (m_finish v) a in
    ret r.2.
  (** vector.hpp:605-611 *)
  Definition vec_emplace_back (v : vec_obj) (a : arg V) : MV vec_obj :=
    let! r := insert_value v (m_finish v) a in
    ret r.2.

  (** vector.hpp:741-764, over the arguments the iterators [first,last)
      yield.  NESTL_ASSERT (lines 746-747) is not defined anywhere, so this
      overload does not compile when used; the model reads it as assert. *)
  Fixpoint insert_range_loop (v : vec_obj) (offset : nat) (res : ptr) (args : list (arg V)) : MV (ptr * vec_obj) :=
    match args with
    | [] => ret (res, v)
    | a :: args =>
        let! new_pos := padd (m_start v) offset in
        let! r := insert_value v new_pos a in
        let! e := has_err in
        if (e : bool) then ret (vec_end r.2, r.2) else
        insert_range_loop r.2 (S offset) r.1 args
    end.
  Definition vec_insert_range (v : vec_obj) (pos : ptr) (args : list (arg V)) : MV vec_obj :=
    do! assert_ cf (pleb (m_start v) pos) in
    do! assert_ cf (pleb pos (m_finish v)) in
    let! offset := pdiff pos (m_start v) in
    let! r := insert_range_loop v offset Null args in
    ret r.2.

  (** vector.hpp:784-792; [stop] is m_start + count *)
  Fixpoint resize_loop (fuel : nat) (v : vec_obj) (count : nat) (a : arg V) : MV vec_obj :=
    match fuel with
    | 0 => fail FFuel
    | S fuel =>
        let! stop := padd (m_start v) count in
        if pltb (m_finish v) stop then
          do! construct_at (m_finish v) a in
          let! e := has_err in
          if (e : bool) then ret v else
          let! fin := padd (m_finish v) 1 in
          resize_loop fuel (Vec (m_allocator v) (m_start v) fin (m_end_of_storage v)) count a
        else ret v
    end.
  (** vector.hpp:766-794, 621-627.  The one-argument resize (613-619) passes
      no arguments to the constructor; it is in VecDefault.v. *)
  Definition vec_resize (v : vec_obj) (count : nat) (a : arg V) : MV vec_obj :=
    let! n := vec_size v in
    if decide (count <= n) then
      let! p := padd (m_start v) count in
      do! destroy p (m_finish v) in
      ret (Vec (m_allocator v) (m_start v) p (m_end_of_storage v))
    else
      let! v := grow v count in
      let! e := has_err in
      if (e : bool) then ret v else
      resize_loop (S count) v count a.

  (** ** Assignment *)

  (** vector.hpp:324-332 *)
  Fixpoint assign_n_loop (v : vec_obj) (n : nat) (a : arg V) : MV vec_obj :=
    match n with
    | 0 => ret v
    | S n =>
        let! v := vec_push_back v a in
        let! e := has_err in
        if (e : bool) then ret v else
        assign_n_loop v n a
    end.
  (** vector.hpp:309-333.  [tmp] receives the old contents (line 314) and is
      destroyed when the function returns. *)
  Definition vec_assign_n (v : vec_obj) (n : nat) (a : arg V) : MV vec_obj :=
    let '(tmp, v) := vec_swap (vec_new (c_dflt cf)) v in
    do! assert_ cf (vec_empty v) in
    let! v := grow v n in
    let! e := has_err in
    let! v := (if (e : bool) then ret v else assign_n_loop v n a) in
    do! vec_destroy tmp in
    ret v.

  (** vector.hpp:674-694, over the arguments an input iterator yields *)
  Fixpoint assign_input_loop (v : vec_obj) (args : list (arg V)) : MV vec_obj :=
    match args with
    | [] => ret v
    | a :: args =>
        let! v := vec_push_back v a in
        let! e := has_err in
        if (e : bool) then ret v else
        assign_input_loop v args
    end.
  (** vector.hpp:335-343 with input iterators *)
  Definition vec_assign_input (v : vec_obj) (args : list (arg V)) : MV vec_obj :=
    let '(tmp, v) := vec_swap (vec_new (c_dflt cf)) v in
    do! assert_ cf (vec_empty v) in
    let! v := assign_input_loop v args in
    do! vec_destroy tmp in
    ret v.

  (** vector.hpp:674-694 with raw pointers as iterators *)
  Fixpoint assign_ptr_loop (fuel : nat) (v : vec_obj) (first last : ptr) : MV vec_obj :=
    match fuel with
    | 0 => fail FFuel
    | S fuel =>
        if decide (first = last) then ret v else
        let! v := vec_push_back v (ARef first) in
        let! e := has_err in
        if (e : bool) then ret v else
        let! first' := padd first 1 in
        assign_ptr_loop fuel v first' last
    end.
  (** vector.hpp:335-343 and 654-672 with raw pointers (random access) *)
  Definition vec_assign_ptrs (v : vec_obj) (first last : ptr) : MV vec_obj :=
    let '(tmp, v) := vec_swap (vec_new (c_dflt cf)) v in
    do! assert_ cf (vec_empty v) in
    let! required := pdiff last first in
    let! v := grow v required in
    let! e := has_err in
    let! v := (if (e : bool) then ret v else
               do! assert_ cf (vec_empty v) in
               assign_ptr_loop (S (poff last)) v first last) in
    do! vec_destroy tmp in
    ret v.
  (** vector.hpp:301-307; [other] may be the same object *)
  Definition vec_copy (v other : vec_obj) : MV vec_obj :=
    vec_assign_ptrs v (m_start other) (m_finish other).

  (** ** Comparison *)

  (** vector.hpp:241-250 *)
  Fixpoint eq_loop (eqv : V -> V -> bool) (fuel : nat) (l lend r : ptr) : MV bool :=
    match fuel with
    | 0 => fail FFuel
    | S fuel =>
        if decide (l = lend) then ret true else
        let! x := read l in
        let! y := read r in
        if eqv x y then
          let! l' := padd l 1 in
          let! r' := padd r 1 in
          eq_loop eqv fuel l' lend r'
        else ret false
    end.
  (** vector.hpp:226-253 *)
  Definition vec_equal (eqv : V -> V -> bool) (v o : vec_obj) : MV bool :=
    let! n := vec_size v in
    let! n' := vec_size o in
    if decide (n = n') then
      eq_loop eqv (S (poff (m_finish v))) (m_start v) (m_finish v) (m_start o)
    else ret false.

  (** ** Exception-enabled wrapper, nestl/has_exceptions/vector.hpp

      A thrown exception is modelled by the result [inr error]; locals are
      destroyed on the way out. *)

  (** has_exceptions/vector.hpp:111-132: the base part is already constructed
      when copy_nothrow fails, so its destructor runs before the exception
      leaves. *)
  Definition hvec_copy_ctor (other : vec_obj) : MV (vec_obj + error) :=
    let! r := with_local_err (vec_copy (vec_new (m_allocator other)) other) in
    match r with
    | (v, None) => ret (inl v)
    | (v, Some e) =>
        do! vec_destroy v in
        ret (inr e)
    end.
  (** has_exceptions/vector.hpp:141-156: copy and swap *)
  Definition hvec_copy_assign (v other : vec_obj) : MV (vec_obj * option error) :=
    let! r := hvec_copy_ctor other in
    match r with
    | inr e => ret (v, Some e)
    | inl tmp =>
        let '(tmp, v) := vec_swap tmp v in
        do! vec_destroy tmp in
        ret (v, None)
    end.
  (** has_exceptions/vector.hpp:190-210 *)
  Definition hvec_push_back (v : vec_obj) (a : arg V) : MV (vec_obj * option error) :=
    with_local_err (vec_push_back v a).
End vector.
