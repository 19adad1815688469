(** * Model of nestl::shared_ptr and nestl::weak_ptr

    nestl/implementation/shared_ptr.hpp.  Handles live in variables and in
    members of managed objects; destroying an object destroys its members, so
    releasing one handle may release many. *)
From Verif Require Export Base.

(** The static type of a handle. *)
Inductive hkind := KShared | KWeak.
#[global] Instance hkind_eq_dec : EqDecision hkind.
Proof. solve_decision. Defined.

(** shared_ptr.hpp:188-189 and 339-340: m_ptr and m_refcount.  The object is
    stored inside its control block, so both are addresses of control blocks
    (null = None).  Conversions between element types (Y to T) do not change
    the addresses in the model. *)
Record handle := Handle {
  h_kind : hkind;
  h_ptr : option addr;
  h_rc : option addr
}.
#[global] Instance handle_eq_dec : EqDecision handle.
Proof. solve_decision. Defined.

Definition null (k : hkind) : handle := Handle k None None.

(** A memory cell: a variable that holds a handle, or a control block
    (type_stored_by_value, 87-129, with the counters of shared_count_base,
    78-79): its allocator, m_use_count, m_weak_use_count, and the managed
    object if one is alive in m_value: a value and its handle members.
    The counters are mathematical integers (C++: long; they would overflow
    after 2^63 handles). *)
Record cblock (V : Type) := CB {
  cb_alloc : alloc_id;
  cb_use : Z;
  cb_weak : Z;
  cb_val : option (V * list handle)
}.
Arguments CB {V}.
Arguments cb_alloc {V}.
Arguments cb_use {V}.
Arguments cb_weak {V}.
Arguments cb_val {V}.
#[global] Instance cblock_eq_dec {V} `{EqDecision V} : EqDecision (cblock V).
Proof. solve_decision. Defined.
Inductive scell (V : Type) :=
| SVar (h : handle)
| SBlock (b : cblock V).
Arguments SVar {V}.
Arguments SBlock {V}.
#[global] Instance scell_eq_dec {V} `{EqDecision V} : EqDecision (scell V).
Proof. solve_decision. Defined.

(** Where a handle is stored: a variable (index 0), or the n-th handle member of
    the object in a control block. *)
Definition loc := (addr * nat)%type.

Section model.
  Context {V : Type} (cf : cfg V).
  Notation MS := (M (scell V)).

  (** ** Reading and writing handles *)

  Definition get_block (c : addr) : MS (cblock V) :=
    let! b := load c in
    match b with
    | SVar _ => fail FRaw
    | SBlock b => ret b
    end.
  Definition put_block (c : addr) (b : cblock V) : MS unit := store c (SBlock b).

  Definition get_handle (l : loc) : MS handle :=
    let! c := load l.1 in
    match c with
    | SVar h => match l.2 with 0 => ret h | S _ => fail FBounds end
    | SBlock b =>
        match cb_val b with
        | None => fail FRaw
        | Some (_, hs) => match hs !! l.2 with Some h => ret h | None => fail FBounds end
        end
    end.
  Definition put_handle (l : loc) (h : handle) : MS unit :=
    let! c := load l.1 in
    match c with
    | SVar _ => match l.2 with 0 => store l.1 (SVar h) | S _ => fail FBounds end
    | SBlock b =>
        match cb_val b with
        | None => fail FRaw
        | Some (v, hs) =>
            match hs !! l.2 with
            | Some _ => put_block l.1 (CB (cb_alloc b) (cb_use b) (cb_weak b) (Some (v, <[l.2 := h]> hs)))
            | None => fail FBounds
            end
        end
    end.

  (** ** Control blocks *)

  (** shared_ptr.hpp:35-39 *)
  Definition cb_use_count (c : addr) : MS Z :=
    let! b := get_block c in
    do! assert_ cf (bool_decide (0 <= cb_use b)%Z) in
    ret (cb_use b).
  (** shared_ptr.hpp:41-45 *)
  Definition add_ref (c : addr) : MS unit :=
    let! b := get_block c in
    do! assert_ cf (bool_decide (0 <= cb_use b)%Z) in
    put_block c (CB (cb_alloc b) (cb_use b + 1) (cb_weak b) (cb_val b)).
  (** shared_ptr.hpp:61-65 *)
  Definition weak_add_ref (c : addr) : MS unit :=
    let! b := get_block c in
    do! assert_ cf (bool_decide (0 <= cb_weak b)%Z) in
    put_block c (CB (cb_alloc b) (cb_use b) (cb_weak b + 1) (cb_val b)).
  (** shared_ptr.hpp:112-118: destroys the control block and returns its
      storage to a copy of its own allocator.  An object still alive in it
      would never be destroyed. *)
  Definition destroy_self (c : addr) : MS unit :=
    let! b := get_block c in
    match cb_val b with
    | Some _ => fail FLive
    | None => free_cell c
    end.
  (** shared_ptr.hpp:67-75 *)
  Definition weak_release (c : addr) : MS unit :=
    let! b := get_block c in
    do! assert_ cf (bool_decide (0 < cb_weak b)%Z) in
    do! put_block c (CB (cb_alloc b) (cb_use b) (cb_weak b - 1) (cb_val b)) in
    if decide (cb_weak b - 1 = 0 /\ cb_use b = 0)%Z then destroy_self c else ret tt.

  (** shared_ptr.hpp:47-59 (release), 106-110 (destroy_value), 393-400
      (~shared_ptr), 266-272 (~weak_ptr).  Destroying the object ends its
      lifetime and destroys its handle members one after the other.  [fuel]
      bounds the nesting of calls. *)
  Fixpoint release (fuel : nat) (c : addr) : MS unit :=
    match fuel with
    | 0 => fail FFuel
    | S fuel =>
        let! b := get_block c in
        do! assert_ cf (bool_decide (0 < cb_use b)%Z) in
        do! put_block c (CB (cb_alloc b) (cb_use b - 1) (cb_weak b) (cb_val b)) in
        if decide (cb_use b - 1 = 0)%Z then
          (* destroy_value *)
          do! (let! b := get_block c in
               match cb_val b with
               | None => fail FRaw
               | Some (_, hs) =>
                   do! put_block c (CB (cb_alloc b) (cb_use b) (cb_weak b) None) in
                   (fix members (hs : list handle) : MS unit :=
                      match hs with
                      | [] => ret tt
                      | h :: hs =>
                          do! (match h_rc h with
                               | None => ret tt
                               | Some d => match h_kind h with KShared => release fuel d | KWeak => weak_release d end
                               end) in
                          members hs
                      end) hs
               end) in
          let! b := get_block c in
          if decide (cb_weak b = 0)%Z then destroy_self c else ret tt
        else ret tt
    end.

  (** Nested releases destroy different objects, so their number is bounded by
      the size of the heap. *)
  Definition release_top (c : addr) : MS unit :=
    let! h := get_heap in
    release (S (size h)) c.

  (** ~shared_ptr (393-400), ~weak_ptr (266-272) *)
  Definition destroy_handle (h : handle) : MS unit :=
    match h_rc h with
    | None => ret tt
    | Some c => match h_kind h with KShared => release_top c | KWeak => weak_release c end
    end.

  (** ** shared_ptr

      A constructor returns the new handle, [make_var] puts it into a new
      variable. *)

  Definition make_var (h : handle) : MS addr := new_local (SVar h).

  Definition ref_opt (r : option addr) : MS unit :=
    match r with Some c => add_ref c | None => ret tt end.
  Definition weak_ref_opt (r : option addr) : MS unit :=
    match r with Some c => weak_add_ref c | None => ret tt end.

  (** shared_ptr.hpp:348-360 *)
  Definition sp_null : handle := null KShared.
  (** shared_ptr.hpp:191-199 *)
  Definition sp_raw (p r : option addr) : MS handle :=
    do! ref_opt r in
    ret (Handle KShared p r).
  (** shared_ptr.hpp:362-383 *)
  Definition sp_copy (other : loc) : MS handle :=
    let! o := get_handle other in
    do! ref_opt (h_rc o) in
    ret (Handle KShared (h_ptr o) (h_rc o)).
  (** shared_ptr.hpp:385-391, 464-469: starts null, then swaps *)
  Definition sp_move (other : loc) : MS handle :=
    let! o := get_handle other in
    do! put_handle other sp_null in
    ret o.
  (** shared_ptr.hpp:464-469 *)
  Definition sp_swap (this other : loc) : MS unit :=
    let! a := get_handle this in
    let! b := get_handle other in
    do! put_handle this b in
    put_handle other a.
  (** shared_ptr.hpp:457-462: [tmp] is destroyed at the end *)
  Definition sp_reset (this : loc) : MS unit :=
    let! tmp := get_handle this in
    do! put_handle this sp_null in
    destroy_handle tmp.
  (** shared_ptr.hpp:422-438 *)
  Definition sp_assign_conv (this other : loc) : MS unit :=
    let! tmp := get_handle this in
    do! put_handle this sp_null in
    let! o := get_handle other in
    do! put_handle this (Handle KShared (h_ptr o) (h_rc o)) in
    do! ref_opt (h_rc o) in
    destroy_handle tmp.
  (** shared_ptr.hpp:403-420 *)
  Definition sp_assign (this other : loc) : MS unit :=
    if decide (this = other) then ret tt else sp_assign_conv this other.
  (** shared_ptr.hpp:440-455: [tmp] is destroyed before [other] is read *)
  Definition sp_move_assign (this other : loc) : MS unit :=
    let! tmp := get_handle this in
    do! put_handle this sp_null in
    do! destroy_handle tmp in
    let! o := get_handle other in
    do! put_handle other sp_null in
    put_handle this (Handle KShared (h_ptr o) (h_rc o)).
  (** shared_ptr.hpp:491-495 *)
  Definition sp_use_count (this : loc) : MS Z :=
    let! h := get_handle this in
    match h_rc h with Some c => cb_use_count c | None => ret 0%Z end.
  (** shared_ptr.hpp:497-501 *)
  Definition sp_unique (this : loc) : MS bool :=
    let! n := sp_use_count this in
    ret (bool_decide (n = 1)%Z).
  (** shared_ptr.hpp:182-185 *)
  Definition sp_bool (this : loc) : MS bool :=
    let! n := sp_use_count this in
    ret (bool_decide (0 < n)%Z).
  (** shared_ptr.hpp:471-475 *)
  Definition sp_get (this : loc) : MS (option addr) :=
    let! h := get_handle this in
    ret (h_ptr h).
  (** shared_ptr.hpp:477-489: [*p] and [p->], reading the object *)
  Definition sp_deref (this : loc) : MS (addr * V * list handle) :=
    let! h := get_handle this in
    do! assert_ cf (bool_decide (h_ptr h <> None)) in
    match h_ptr h with
    | None => fail FNull
    | Some c =>
        let! b := get_block c in
        match cb_val b with
        | Some (x, hs) => ret (c, x, hs)
        | None => fail FRaw
        end
    end.

  (** shared_ptr.hpp:503-532.  The allocator argument is not used: the control
      block comes from a default constructed one.  The new object's handle
      members, of the types [ks], are null.  When initialize() fails, the guard
      returns the storage; the control block, whose destructor is not run,
      holds nothing. *)
  Definition make_shared_a (al : alloc_id) (v : V) (ks : list hkind) : MS handle :=
    let! r := alloc_cell (SBlock (CB (c_dflt cf) 0 0 None)) in
    let! e := has_err in
    if (e : bool) then ret sp_null else
    match r with
    | None => fail FNull
    | Some c =>
        let set v := (let! b := get_block c in put_block c (CB (cb_alloc b) (cb_use b) (cb_weak b) v)) in
        do! construct cf (fun x => set (Some (x, null <$> ks))) (fun x => set (Some (x, null <$> ks))) (set None) (ret v) in
        let! e := has_err in
        if (e : bool) then
          do! free_cell c in
          ret sp_null
        else
          sp_raw (Some c) (Some c)
    end.
  (** shared_ptr.hpp:534-539 *)
  Definition make_shared (v : V) (ks : list hkind) : MS handle := make_shared_a (c_dflt cf) v ks.

  (** ** weak_ptr *)

  (** shared_ptr.hpp:220-224 *)
  Definition wp_null : handle := null KWeak.
  (** shared_ptr.hpp:226-232 *)
  Definition wp_move (other : loc) : MS handle :=
    let! o := get_handle other in
    do! put_handle other wp_null in
    ret (Handle KWeak (h_ptr o) (h_rc o)).
  (** shared_ptr.hpp:234-242 (from shared_ptr), 244-252 (copy) *)
  Definition wp_copy (other : loc) : MS handle :=
    let! o := get_handle other in
    do! weak_ref_opt (h_rc o) in
    ret (Handle KWeak (h_ptr o) (h_rc o)).
  (** shared_ptr.hpp:255-264 *)
  Definition wp_reset (this : loc) : MS unit :=
    let! h := get_handle this in
    do! destroy_handle h in
    put_handle this wp_null.
  (** shared_ptr.hpp:274-289 (from shared_ptr), 291-306 (copy assignment) *)
  Definition wp_assign (this other : loc) : MS unit :=
    let! h := get_handle this in
    do! destroy_handle h in
    let! o := get_handle other in
    do! put_handle this (Handle KWeak (h_ptr o) (h_rc o)) in
    weak_ref_opt (h_rc o).
  (** shared_ptr.hpp:308-316: [tmp] takes over the old contents and is
      destroyed at the end; [other] is left as it is *)
  Definition wp_move_assign (this other : loc) : MS unit :=
    let! tmp := get_handle this in
    do! put_handle this wp_null in
    let! o := get_handle other in
    do! put_handle this (Handle KWeak (h_ptr o) (h_rc o)) in
    destroy_handle tmp.
  (** shared_ptr.hpp:323-331 *)
  Definition wp_use_count (this : loc) : MS Z := sp_use_count this.
  (** shared_ptr.hpp:318-321 *)
  Definition wp_expired (this : loc) : MS bool :=
    let! n := wp_use_count this in
    ret (bool_decide (n = 0)%Z).
  (** shared_ptr.hpp:333-336 *)
  Definition wp_lock (this : loc) : MS handle :=
    let! h := get_handle this in
    sp_raw (h_ptr h) (h_rc h).

  (** End of a variable's scope: its destructor runs and its storage is gone
      (nothing can name the variable in between). *)
  Definition drop_var (a : addr) : MS unit :=
    let! h := get_handle (a, 0) in
    do! free_cell a in
    destroy_handle h.
End model.
