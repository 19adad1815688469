(** * Vectors of vectors

    The element type of a vector may itself be a vector, to any depth.  Then
    constructing an element copies a vector and destroying an element frees
    storage.  This file has the functions of VecModel.v for elements whose
    construction and destruction are arbitrary programs ([cons], [des]), and ties
    the knot for vectors.  With the construction and destruction of plain
    elements they are the functions of VecModel.v (NestProofs.v, lemmas
    [plain_...]). *)
From Verif Require Export VecModel.

(** An object that can be an element: a plain value, or a vector. *)
Inductive val (T : Type) :=
| VElem (x : T)
| VVec (o : vec_obj).
Arguments VElem {T}.
Arguments VVec {T}.
#[global] Instance val_eq_dec {T} `{EqDecision T} : EqDecision (val T).
Proof. solve_decision. Defined.

Section generic.
  Context {V : Type} (cf : cfg V).
  Notation MV := (M (vblock V)).
  (** class_operations::construct(err, p, arg) and p->~T() of the element type *)
  Context (cons : ptr -> arg V -> MV unit) (des : ptr -> MV unit).

  (** nestl/detail/destroy.hpp:23-31 *)
  Fixpoint g_destroy_loop (fuel : nat) (first last : ptr) : MV unit :=
    match fuel with
    | 0 => fail FFuel
    | S fuel =>
        if decide (first = last) then ret tt else
        do! des first in
        let! first' := padd first 1 in
        g_destroy_loop fuel first' last
    end.
  Definition g_destroy (first last : ptr) : MV unit :=
    g_destroy_loop (S (poff last)) first last.

  (** nestl/detail/uninitialised_copy.hpp:15-35 *)
  Fixpoint g_uninitialised_copy_loop (fuel : nat) (first last output cur : ptr) : MV ptr :=
    match fuel with
    | 0 => fail FFuel
    | S fuel =>
        if decide (first = last) then ret cur else
        do! cons cur (ARef first) in
        let! e := has_err in
        if (e : bool) then
          do! g_destroy output cur in
          ret cur
        else
          let! first' := padd first 1 in
          let! cur' := padd cur 1 in
          g_uninitialised_copy_loop fuel first' last output cur'
    end.
  Definition g_uninitialised_copy (first last output : ptr) : MV ptr :=
    g_uninitialised_copy_loop (S (poff last)) first last output output.

  (** vector.hpp:813-840 *)
  Definition g_do_reserve (v : vec_obj) (new_cap : nat) : MV vec_obj :=
    let! p := allocate cf (m_allocator v) new_cap in
    let! e := has_err in
    if (e : bool) then ret v else
    let! _ := g_uninitialised_copy (m_start v) (m_finish v) p in
    let! e := has_err in
    if (e : bool) then
      do! deallocate (m_allocator v) p new_cap in
      ret v
    else
    let! current_size := vec_size v in
    do! g_destroy (m_start v) (m_finish v) in
    let! old_cap := pdiff (m_end_of_storage v) (m_start v) in
    do! deallocate (m_allocator v) (m_start v) old_cap in
    let! fin := padd p current_size in
    let! eos := padd p new_cap in
    do! deallocate (m_allocator v) Null new_cap in
    ret (Vec (m_allocator v) p fin eos).

  (** vector.hpp:513-532 *)
  Definition g_reserve (v : vec_obj) (new_cap : nat) : MV vec_obj :=
    let! cap := vec_capacity v in
    if decide (new_cap <= cap) then ret v else
    if decide (size_max < N.of_nat new_cap)%N then
      do! put_err (Some ELength) in
      ret v
    else g_do_reserve v new_cap.

  (** vector.hpp:541-550 *)
  Definition g_shrink_to_fit (v : vec_obj) : MV vec_obj :=
    let! cap := vec_capacity v in
    let! n := vec_size v in
    if decide (n < cap) then g_do_reserve v n else ret v.

  (** vector.hpp:796-811 *)
  Definition g_grow (v : vec_obj) (required : nat) : MV vec_obj :=
    let! cap := vec_capacity v in
    let new_cap0 := Nat.div2 (sz (sz (cap + 1) * 3)) in
    let new_cap := if decide (new_cap0 < required) then required else new_cap0 in
    do! assert_ cf (bool_decide (cap < new_cap)) in
    g_reserve v new_cap.

  (** vector.hpp:279-284 *)
  Definition g_vec_destroy (v : vec_obj) : MV unit :=
    do! g_destroy (m_start v) (m_finish v) in
    let! cap := pdiff (m_end_of_storage v) (m_start v) in
    deallocate (m_allocator v) (m_start v) cap.

  (** vector.hpp:553-558, as in VecModel.v *)
  Definition g_clear (v : vec_obj) : MV vec_obj :=
    do! g_destroy (m_start v) (m_finish v) in
    ret (Vec (m_allocator v) (m_start v) (m_start v) (m_end_of_storage v)).

  (** vector.hpp:293-299, 646-652 *)
  Definition g_move_assign (v o : vec_obj) : MV (vec_obj * vec_obj) :=
    let '(tmp, v1) := vec_move_ctor v in
    let '(v2, o2) := swap_data v1 o in
    do! g_vec_destroy tmp in
    ret (v2, o2).

  (** vector.hpp:719-728 *)
  Fixpoint g_shift_loop (fuel : nat) (val first : ptr) : MV bool :=
    match fuel with
    | 0 => fail FFuel
    | S fuel =>
        if decide (val = first) then ret true else
        let! old := pdec val in
        do! cons val (ARef old) in
        let! e := has_err in
        if (e : bool) then ret false else
        do! g_destroy old val in
        let! val' := pdec val in
        g_shift_loop fuel val' first
    end.

  (** vector.hpp:696-739 *)
  Definition g_insert_value (v : vec_obj) (pos : ptr) (a : arg V) : MV (ptr * vec_obj) :=
    do! assert_ cf (pleb (m_start v) pos) in
    do! assert_ cf (pleb pos (m_finish v)) in
    let! offset := pdiff pos (m_start v) in
    let! cap := vec_capacity v in
    let! n := vec_size v in
    let! r := (if decide (cap = n) then
                 let! v := g_grow v (sz (cap + 1)) in
                 let! e := has_err in
                 ret (v, e)
               else ret (v, false)) in
    let '(v, e) := r in
    if (e : bool) then ret (vec_end v, v) else
    let! cap := vec_capacity v in
    let! n := vec_size v in
    do! assert_ cf (bool_decide (n < cap)) in
    let last := m_finish v in
    let! first := padd (m_start v) offset in
    let! ok := g_shift_loop (S (poff last)) last first in
    if negb ok then ret (vec_end v, v) else
    do! cons first a in
    let! e := has_err in
    if (e : bool) then ret (vec_end v, v) else
    let! fin := padd (m_finish v) 1 in
    ret (first, Vec (m_allocator v) (m_start v) fin (m_end_of_storage v)).

  (** vector.hpp:588-603 *)
  Definition g_push_back (v : vec_obj) (a : arg V) : MV vec_obj :=
    let! r := g_insert_value v (m_finish v) a in
    ret r.2.

  (** vector.hpp:784-792 *)
  Fixpoint g_resize_loop (fuel : nat) (v : vec_obj) (count : nat) (a : arg V) : MV vec_obj :=
    match fuel with
    | 0 => fail FFuel
    | S fuel =>
        let! stop := padd (m_start v) count in
        if pltb (m_finish v) stop then
          do! cons (m_finish v) a in
          let! e := has_err in
          if (e : bool) then ret v else
          let! fin := padd (m_finish v) 1 in
          g_resize_loop fuel (Vec (m_allocator v) (m_start v) fin (m_end_of_storage v)) count a
        else ret v
    end.
  (** vector.hpp:621-627, 766-794 *)
  Definition g_resize (v : vec_obj) (count : nat) (a : arg V) : MV vec_obj :=
    let! n := vec_size v in
    if decide (count <= n) then
      let! p := padd (m_start v) count in
      do! g_destroy p (m_finish v) in
      ret (Vec (m_allocator v) (m_start v) p (m_end_of_storage v))
    else
      let! v := g_grow v count in
      let! e := has_err in
      if (e : bool) then ret v else
      g_resize_loop (S count) v count a.

  (** vector.hpp:674-694 with raw pointers as iterators *)
  Fixpoint g_assign_ptr_loop (fuel : nat) (v : vec_obj) (first last : ptr) : MV vec_obj :=
    match fuel with
    | 0 => fail FFuel
    | S fuel =>
        if decide (first = last) then ret v else
        let! v := g_push_back v (ARef first) in
        let! e := has_err in
        if (e : bool) then ret v else
        let! first' := padd first 1 in
        g_assign_ptr_loop fuel v first' last
    end.
  (** vector.hpp:335-343, 654-672 *)
  Definition g_assign_ptrs (v : vec_obj) (first last : ptr) : MV vec_obj :=
    let '(tmp, v) := vec_swap (vec_new (c_dflt cf)) v in
    do! assert_ cf (vec_empty v) in
    let! required := pdiff last first in
    let! v := g_grow v required in
    let! e := has_err in
    let! v := (if (e : bool) then ret v else
               do! assert_ cf (vec_empty v) in
               g_assign_ptr_loop (S (poff last)) v first last) in
    do! g_vec_destroy tmp in
    ret v.
  (** vector.hpp:301-307 *)
  Definition g_copy (v other : vec_obj) : MV vec_obj :=
    g_assign_ptrs v (m_start other) (m_finish other).

  (** has_exceptions/vector.hpp:111-132 *)
  Definition g_copy_ctor (other : vec_obj) : MV (vec_obj + error) :=
    let! r := with_local_err (g_copy (vec_new (m_allocator other)) other) in
    match r with
    | (v, None) => ret (inl v)
    | (v, Some e) =>
        do! g_vec_destroy v in
        ret (inr e)
    end.
  (** has_exceptions/vector.hpp:141-156 *)
  Definition g_copy_assign (v other : vec_obj) : MV (vec_obj * option error) :=
    let! r := g_copy_ctor other in
    match r with
    | inr e => ret (v, Some e)
    | inl tmp =>
        let '(tmp, v) := vec_swap tmp v in
        do! g_vec_destroy tmp in
        ret (v, None)
    end.
End generic.

(** ** A vector as an element *)

Section element.
  Context {T : Type} (cf : cfg (val T)).
  Notation MV := (M (vblock (val T))).
  (** the elements of the vector that is the element *)
  Context (cons : ptr -> arg (val T) -> MV unit) (des : ptr -> MV unit).

  Definition as_vec (x : val T) : MV vec_obj :=
    match x with VVec o => ret o | VElem _ => fail FRaw end.

  (** has_exceptions/detail/class_operations.hpp:27-40 with T(const T&) of
      has_exceptions/vector.hpp:111-132: an exception becomes the error.  The
      new vector is put into place when it is complete; C++ builds it there. *)
  Definition vec_cons_copy (p : ptr) (a : arg (val T)) : MV unit :=
    do! tick_ctor in
    let! x := read_arg a in
    let! other := as_vec x in
    let! r := g_copy_ctor cf cons des other in
    match r with
    | inl v => place p (VVec v)
    | inr e => put_err (Some e)
    end.

  (** p->~vector() *)
  Definition vec_des (p : ptr) : MV unit :=
    let! x := read p in
    let! o := as_vec x in
    do! g_vec_destroy des o in
    destroy1 p.

  (** nestl/class_operations.hpp:42-65: default construction (which cannot
      fail), then the initialiser of vector.hpp:211-221 under a destruction
      guard.  The initialiser is called [construct] in vector.hpp and [init]
      where it is used, so this does not compile as it is. *)
  Definition vec_cons_init (p : ptr) (a : arg (val T)) : MV unit :=
    do! tick_ctor in
    do! place p (VVec (vec_new (c_dflt cf))) in
    let! x := read_arg a in
    let! other := as_vec x in
    let! y := read p in
    let! this := as_vec y in
    let! this := g_copy cf cons des this other in
    do! overwrite p (VVec this) in
    let! e := has_err in
    if (e : bool) then vec_des p else ret tt.
End element.

(** ** Any depth *)

Section depth.
  Context {T : Type}.
  Notation MV := (M (vblock (val T))).
  (** [lc 0]: plain elements; [lc d]: the instantiation for vectors whose
      elements have depth [d].  [ex]: vectors are copied by a copy constructor
      that throws (true) or by two-phase initialisation (false). *)
  Context (lc : nat -> cfg (val T)) (ex : bool).

  Fixpoint ndes (d : nat) : ptr -> MV unit :=
    match d with
    | 0 => destroy1
    | S d => vec_des (ndes d)
    end.
  Fixpoint ncons (d : nat) : ptr -> arg (val T) -> MV unit :=
    match d with
    | 0 => construct_at (lc 0)
    | S d => (if ex then vec_cons_copy else vec_cons_init) (lc d) (ncons d) (ndes d)
    end.
End depth.
