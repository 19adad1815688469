(** * The machine underneath the model of nestl

    C++ code is modelled by total functions in a state-and-fault monad.  The
    state ("world") holds the heap, the oracle that decides which allocations
    and which element constructions fail, and the caller's error object. *)

From stdpp Require Export gmap list numbers fin_maps.

(** Addresses of heap cells.  The null pointer is modelled separately. *)
Definition addr := positive.
Bind Scope positive_scope with addr.

(** Allocator identity.  Two allocators with the same identity compare equal:
    storage obtained from one may be returned through the other
    (nestl/allocator.hpp:15-67 is stateless: all of them are equal; user
    supplied allocators may be stateful). *)
Definition alloc_id := nat.

(** Reasons for an execution to be undefined, to abort, or not to terminate. *)
Inductive fault :=
| FNull      (* null pointer dereferenced *)
| FFreed     (* access through a pointer to storage that is not allocated *)
| FRaw       (* read, assignment or destruction where no object is alive *)
| FLive      (* construction over a live object, or release of storage that
                still holds one: that object is never destroyed *)
| FFree      (* deallocation of something allocate() did not return *)
| FAlloc     (* deallocation through a different allocator *)
| FBounds    (* pointer arithmetic outside the allocated storage *)
| FAssert    (* assert() failed in a debug build *)
| FCount     (* signed reference counter decremented below zero *)
| FFuel.     (* loop did not terminate *)

(** What an operation reports through its [OperationError&]:
    nestl/has_exceptions/exception_ptr_error.hpp and
    nestl/no_exceptions/errc_based_error.hpp both have exactly these producers:
    [build_bad_alloc], [build_length_error] and [from_exception_ptr] / the
    code chosen by a user's two-phase initialiser. *)
Inductive error :=
| EBadAlloc
| ELength
| EElem (code : nat).

(** One answer of the environment: [EvFail] makes the allocation or element
    operation fail, [EvOk hint] makes it succeed; for an allocation [hint] is
    the address to hand out (used if it is free). *)
Inductive event :=
| EvFail (code : nat)
| EvOk (hint : addr).
Arguments EvOk _%positive.

Record world (C : Type) := World {
  w_heap : gmap addr C;        (* allocated cells *)
  w_orc : list event;          (* future answers; [] = everything succeeds *)
  w_err : option error;        (* the OperationError object of the caller *)
  w_allocs : nat;              (* number of calls of allocate() so far *)
  w_ctors : nat                (* number of element constructions so far *)
}.
Arguments World {C}.
Arguments w_heap {C}.
Arguments w_orc {C}.
Arguments w_err {C}.
Arguments w_allocs {C}.
Arguments w_ctors {C}.

Inductive out (C A : Type) :=
| Done (a : A) (w : world C)
| Fault (f : fault).
Arguments Done {C A}.
Arguments Fault {C A}.

Definition M (C A : Type) := world C -> out C A.

Definition ret {C A} (a : A) : M C A := fun w => Done a w.
Definition bind {C A B} (m : M C A) (k : A -> M C B) : M C B :=
  fun w => match m w with
           | Done a w' => k a w'
           | Fault f => Fault f
           end.
Definition fail {C A} (f : fault) : M C A := fun _ => Fault f.

Declare Scope mach_scope.
Delimit Scope mach_scope with mach.
Notation "'let!' x ':=' m 'in' k" := (bind m (fun x => k))
  (at level 200, x pattern, m at level 100, k at level 200,
   format "'[v' 'let!'  x  ':='  m  'in' '//' k ']'") : mach_scope.
Notation "'do!' m 'in' k" := (bind m (fun _ => k))
  (at level 200, m at level 100, k at level 200,
   format "'[v' 'do!'  m  'in' '//' k ']'") : mach_scope.
Open Scope mach_scope.

Section machine.
  Context {C : Type}.

  Definition set_heap (h : gmap addr C) (w : world C) : world C :=
    World h (w_orc w) (w_err w) (w_allocs w) (w_ctors w).
  Definition set_err (e : option error) (w : world C) : world C :=
    World (w_heap w) (w_orc w) e (w_allocs w) (w_ctors w).

  Definition get_heap : M C (gmap addr C) := fun w => Done (w_heap w) w.
  Definition put_heap (h : gmap addr C) : M C unit := fun w => Done tt (set_heap h w).

  (** The error object: [operator bool] and assignment
      (exception_ptr_error.hpp, errc_based_error.hpp). *)
  Definition has_err : M C bool :=
    fun w => Done (match w_err w with Some _ => true | None => false end) w.
  Definition put_err (e : option error) : M C unit := fun w => Done tt (set_err e w).
  Definition get_err : M C (option error) := fun w => Done (w_err w) w.

  (** A local error object [OperationError err;] around a block of code. *)
  Definition with_local_err {A} (m : M C A) : M C (A * option error) :=
    let! saved := get_err in
    do! put_err None in
    let! a := m in
    let! e := get_err in
    do! put_err saved in
    ret (a, e).

  Definition next_event : M C event :=
    fun w => match w_orc w with
             | [] => Done (EvOk 1%positive) w
             | e :: o => Done e (World (w_heap w) o (w_err w) (w_allocs w) (w_ctors w))
             end.

  Definition tick_alloc : M C unit :=
    fun w => Done tt (World (w_heap w) (w_orc w) (w_err w) (S (w_allocs w)) (w_ctors w)).
  Definition tick_ctor : M C unit :=
    fun w => Done tt (World (w_heap w) (w_orc w) (w_err w) (w_allocs w) (S (w_ctors w))).

  (** The address of the next cell: the environment's choice if it is free. *)
  Definition pick (h : gmap addr C) (hint : addr) : addr :=
    match h !! hint with
    | None => hint
    | Some _ => fresh (dom h)
    end.

  (** ::operator new(..., nothrow) together with allocator::allocate
      (nestl/allocator.hpp:51-61): on failure returns null and sets the error. *)
  Definition alloc_cell (c : C) : M C (option addr) :=
    do! tick_alloc in
    let! ev := next_event in
    match ev with
    | EvFail _ =>
        do! put_err (Some EBadAlloc) in
        ret None
    | EvOk hint =>
        let! h := get_heap in
        let a := pick h hint in
        do! put_heap (<[a := c]> h) in
        ret (Some a)
    end.

  (** Storage of a local variable or member object (cannot fail). *)
  Definition new_local (c : C) : M C addr :=
    let! h := get_heap in
    let a := fresh (dom h) in
    do! put_heap (<[a := c]> h) in
    ret a.

  Definition load (a : addr) : M C C :=
    let! h := get_heap in
    match h !! a with
    | Some c => ret c
    | None => fail FFreed
    end.
  Definition store (a : addr) (c : C) : M C unit :=
    let! h := get_heap in
    match h !! a with
    | Some _ => put_heap (<[a := c]> h)
    | None => fail FFreed
    end.
  Definition free_cell (a : addr) : M C unit :=
    let! h := get_heap in
    match h !! a with
    | Some _ => put_heap (delete a h)
    | None => fail FFree
    end.
End machine.

(** How element constructors behave.  [Nothrow]: the constructor cannot fail
    (has_exceptions/detail/class_operations.hpp:19-25 and
    no_exceptions/detail/class_operations.hpp:19-25).  [Direct]: it may throw,
    and the exception is turned into an error
    (has_exceptions/detail/class_operations.hpp:27-40).  [TwoPhase]: default
    construction followed by an initialiser that may fail
    (nestl/class_operations.hpp:42-65). *)
Inductive ckind := Nothrow | Direct | TwoPhase.

#[global] Instance ckind_eq_dec : EqDecision ckind.
Proof. solve_decision. Defined.

(** Static parameters of an instantiation. *)
Record cfg (V : Type) := Cfg {
  c_dbg : bool;          (* true: asserts enabled, false: NDEBUG *)
  c_sizeof : N;          (* sizeof(T), bytes *)
  c_max : N;             (* the largest request, in bytes, operator new can satisfy *)
  c_dflt : alloc_id;     (* identity of a default constructed allocator *)
  c_kind : ckind;        (* construction of elements *)
  c_default : V          (* value of a default constructed element *)
}.
Arguments Cfg {V}.
Arguments c_dbg {V}.
Arguments c_sizeof {V}.
Arguments c_max {V}.
Arguments c_dflt {V}.
Arguments c_kind {V}.
Arguments c_default {V}.

(** sizeof is never 0 in C++; element types of 2^61 bytes or more (an eighth
    of the address space per element) are excluded.  No C++ object is larger
    than PTRDIFF_MAX = 2^63 - 1 bytes: operator new fails beyond it. *)
Definition cfg_ok {V} (cf : cfg V) : Prop :=
  (0 < c_sizeof cf < 2^61)%N /\ (c_max cf <= 2^63 - 1)%N.

(** assert(b) *)
Definition assert_ {V C} (cf : cfg V) (b : bool) : M C unit :=
  if c_dbg cf && negb b then fail FAssert else ret tt.

(** Unsigned 64-bit wrap-around. *)
Definition wrap64 (n : N) : N := (n mod 2^64)%N.
Definition size_max : N := (2^64 - 1)%N.

(** Construction of one element at some storage.  [place] begins the lifetime
    of an object with the given value, [assign] changes the value of the live
    object and [unplace] ends its lifetime.

    [Nothrow], [Direct]: nestl/class_operations.hpp:32-37, dispatching to
    has_exceptions/detail/class_operations.hpp:19-40 or
    no_exceptions/detail/class_operations.hpp:19-25.

    [TwoPhase]: nestl/class_operations.hpp:42-65: default construction, then
    [two_phase_initializator<T>::init] under a destruction guard.

    [arg] reads the argument: a constructor reads it before the object is
    alive, [init] reads it when the default-constructed object is. *)
Definition construct {V C} (cf : cfg V)
    (place assign : V -> M C unit) (unplace : M C unit) (arg : M C V) : M C unit :=
  match c_kind cf with
  | Nothrow =>
      do! tick_ctor in
      let! v := arg in
      place v
  | Direct =>
      do! tick_ctor in
      let! v := arg in
      let! ev := next_event in
      match ev with
      | EvFail code => put_err (Some (EElem code))
      | EvOk _ => place v
      end
  | TwoPhase =>
      do! tick_ctor in
      let! ev := next_event in
      do! (match ev with
           | EvFail code => put_err (Some (EElem code))
           | EvOk _ => place (c_default cf)
           end) in
      let! e := has_err in
      if (e : bool) then ret tt else
      let! v := arg in
      let! ev2 := next_event in
      do! (match ev2 with
           | EvFail code => put_err (Some (EElem code))
           | EvOk _ => assign v
           end) in
      let! e := has_err in
      if (e : bool) then unplace else ret tt
  end.
