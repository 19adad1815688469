(** * Elements constructed without arguments

    resize(n), emplace_back() and the like call class_operations::construct
    without arguments.  A two-phase element type is default constructible, so
    this is the first overload (nestl/class_operations.hpp:32-37) for every
    element type: one failure point, and no initialiser runs. *)
From Verif Require Export VecExtra.

(** nestl/class_operations.hpp:32-37 against 42-48: which overload
    construct(err, p) selects *)
Definition default_cfg {V} (cf : cfg V) : cfg V :=
  Cfg (c_dbg cf) (c_sizeof cf) (c_max cf) (c_dflt cf)
    (match c_kind cf with Nothrow => Nothrow | _ => Direct end) (c_default cf).

Section model.
  Context {V : Type} (cf : cfg V).
  Notation MV := (M (vblock V)).

  (** class_operations::construct(err, p) *)
  Definition construct_default (p : ptr) : MV unit :=
    construct_at (default_cfg cf) p (AVal (c_default cf)).

  (** vector.hpp:784-792 with no arguments; the loop uses nothing but the
      construction from the configuration *)
  Definition resize_loop_default : nat -> vec_obj -> nat -> MV vec_obj :=
    fun fuel v count => resize_loop (default_cfg cf) fuel v count (AVal (c_default cf)).

  (** vector.hpp:613-619, 766-794 *)
  Definition vec_resize_default (v : vec_obj) (count : nat) : MV vec_obj :=
    let! n := vec_size v in
    if decide (count <= n) then
      let! p := padd (m_start v) count in
      do! destroy p (m_finish v) in
      ret (Vec (m_allocator v) (m_start v) p (m_end_of_storage v))
    else
      let! v := grow cf v count in
      let! e := has_err in
      if (e : bool) then ret v else
      resize_loop_default (S count) v count.

  (** vector.hpp:605-611, 696-739 with no arguments: emplace_back() *)
  Definition vec_emplace_back_default (v : vec_obj) : MV vec_obj :=
    let pos := m_finish v in
    do! assert_ cf (pleb (m_start v) pos) in
    do! assert_ cf (pleb pos (m_finish v)) in
    let! offset := pdiff pos (m_start v) in
    let! cap := vec_capacity v in
    let! n := vec_size v in
    let! r := (if decide (cap = n) then
                 let! v := grow cf v (sz (cap + 1)) in
                 let! e := has_err in
                 ret (v, e)
               else ret (v, false)) in
    let '(v, e) := r in
    if (e : bool) then ret v else
    let! cap := vec_capacity v in
    let! n := vec_size v in
    do! assert_ cf (bool_decide (n < cap)) in
    let last := m_finish v in
    let! first := padd (m_start v) offset in
    let! ok := shift_loop cf (S (poff last)) last first in
    if negb ok then ret v else
    do! construct_default first in
    let! e := has_err in
    if (e : bool) then ret v else
    let! fin := padd (m_finish v) 1 in
    ret (Vec (m_allocator v) (m_start v) fin (m_end_of_storage v)).
End model.
