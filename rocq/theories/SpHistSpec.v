(** * Programs that use shared_ptr and weak_ptr

    A program has a growing and shrinking list of variables, each of type
    shared_ptr or weak_ptr. *)
From Verif Require Export SpSpec.

(** Expressions that designate a handle: the i-th variable, or a member of the
    object a shared_ptr points to ([e->j]). *)
Inductive hexp :=
| EVar (i : nat)
| EMem (e : hexp) (j : nat).

Inductive spop (V : Type) :=
| SoMake (v : V) (ks : list hkind)  (* auto x = make_shared_nothrow<T>(err, v); T has members of types ks *)
| SoNull (k : hkind)                (* shared_ptr<T> x; or weak_ptr<T> x; *)
| SoCopy (e : hexp)                 (* auto x = e; *)
| SoWeak (e : hexp)                 (* weak_ptr<T> x(e); with e a shared_ptr *)
| SoMove (e : hexp)                 (* auto x = std::move(e); *)
| SoLock (e : hexp)                 (* if (!e.expired()) auto x = e.lock(); *)
| SoAssign (e e' : hexp)            (* e = e'; *)
| SoMoveAssign (e : hexp) (i : nat) (* e = std::move(x_i); shared_ptrs *)
| SoSwap (e e' : hexp)              (* e.swap(e'); *)
| SoReset (e : hexp)                (* e.reset(); *)
| SoDrop (i : nat).                 (* variable x_i goes out of scope *)
Arguments SoMake {V}.
Arguments SoNull {V}.
Arguments SoCopy {V}.
Arguments SoWeak {V}.
Arguments SoMove {V}.
Arguments SoLock {V}.
Arguments SoAssign {V}.
Arguments SoMoveAssign {V}.
Arguments SoSwap {V}.
Arguments SoReset {V}.
Arguments SoDrop {V}.

Section exec.
  Context {V : Type} (cf : cfg V).
  Notation MS := (M (scell V)).

  (** The location designated by an expression; [None] if there is no such
      variable or member, or if a null or weak pointer would be dereferenced. *)
  Fixpoint eval (vars : list addr) (e : hexp) : MS (option loc) :=
    match e with
    | EVar i => ret ((fun a => (a, 0)) <$> vars !! i)
    | EMem e j =>
        let! l := eval vars e in
        match l with
        | None => ret None
        | Some l =>
            let! h := get_handle l in
            if decide (h_kind h = KShared /\ h_ptr h <> None) then
              let! r := sp_deref cf l in
              ret (if decide (j < length r.2) then Some (r.1.1, j) else None)
            else ret None
        end
    end.

  (** Evaluate an expression and look at the type of the handle. *)
  Definition with_loc {A} (vars : list addr) (e : hexp) (dflt : A) (f : loc -> hkind -> MS A) : MS A :=
    let! l := eval vars e in
    match l with
    | None => ret dflt
    | Some l =>
        let! h := get_handle l in
        f l (h_kind h)
    end.

  (** A new variable initialised by [m]. *)
  Definition declare (vars : list addr) (m : MS handle) : MS (list addr) :=
    let! h := m in
    let! a := make_var h in
    ret (vars ++ [a]).

  (** One statement; ill-typed statements and statements that would dereference
      a null pointer do nothing.  Copy-assigning an expired weak_ptr to itself
      and move-assigning weak_ptrs are left out (see C45). *)
  Definition exec_spop (op : spop V) (vars : list addr) : MS (list addr) :=
    match op with
    | SoMake v ks =>
        do! put_err None in
        declare vars (make_shared cf v ks)
    | SoNull k => declare vars (ret (null k))
    | SoCopy e =>
        with_loc vars e vars (fun l k =>
          declare vars (match k with KShared => sp_copy cf l | KWeak => wp_copy cf l end))
    | SoWeak e =>
        with_loc vars e vars (fun l k =>
          match k with KShared => declare vars (wp_copy cf l) | KWeak => ret vars end)
    | SoMove e =>
        with_loc vars e vars (fun l k =>
          declare vars (match k with KShared => sp_move l | KWeak => wp_move l end))
    | SoLock e =>
        with_loc vars e vars (fun l k =>
          match k with
          | KShared => ret vars
          | KWeak =>
              let! b := wp_expired cf l in
              if (b : bool) then ret vars else declare vars (wp_lock cf l)
          end)
    | SoAssign e e' =>
        with_loc vars e vars (fun l k => with_loc vars e' vars (fun l' k' =>
          match k, k' with
          | KShared, KShared => do! sp_assign cf l l' in ret vars
          | KWeak, KShared => do! wp_assign cf l l' in ret vars
          | KWeak, KWeak =>
              let! b := wp_expired cf l in
              if decide (l = l' /\ b = true) then ret vars else
              do! wp_assign cf l l' in ret vars
          | KShared, KWeak => ret vars
          end))
    | SoMoveAssign e i =>
        with_loc vars e vars (fun l k => with_loc vars (EVar i) vars (fun l' k' =>
          match k, k' with
          | KShared, KShared => do! sp_move_assign cf l l' in ret vars
          | _, _ => ret vars
          end))
    | SoSwap e e' =>
        with_loc vars e vars (fun l k => with_loc vars e' vars (fun l' k' =>
          match k, k' with
          | KShared, KShared => do! sp_swap l l' in ret vars
          | _, _ => ret vars
          end))
    | SoReset e =>
        with_loc vars e vars (fun l k =>
          do! (match k with KShared => sp_reset cf l | KWeak => wp_reset cf l end) in ret vars)
    | SoDrop i =>
        match vars !! i with
        | None => ret vars
        | Some a => do! drop_var cf a in ret (delete i vars)
        end
    end.

  Fixpoint exec_spops (ops : list (spop V)) (vars : list addr) : MS (list addr) :=
    match ops with
    | [] => ret vars
    | op :: ops =>
        let! vars := exec_spop op vars in
        exec_spops ops vars
    end.

  (** All variables go out of scope. *)
  Fixpoint drop_all (vars : list addr) : MS unit :=
    match vars with
    | [] => ret tt
    | a :: vars => do! drop_var cf a in drop_all vars
    end.

  (** Objects of the type created have no weak_ptr members. *)
  Definition shared_members (op : spop V) : Prop :=
    match op with SoMake _ ks => Forall (fun k => k = KShared) ks | _ => True end.

  (** The location whose handle a statement releases. *)
  Definition released (op : spop V) (vars : list addr) : MS (option loc) :=
    match op with
    | SoAssign e _ | SoMoveAssign e _ | SoReset e => eval vars e
    | SoDrop i => ret ((fun a => (a, 0)) <$> vars !! i)
    | _ => ret None
    end.
  (** If the handle released is a shared_ptr, the objects that may go with it
      have no weak member that leads back to them, or another weak_ptr stays. *)
  Definition weak_safe (op : spop V) (vars : list addr) (w : world (scell V)) : Prop :=
    forall l x w', released op vars w = Done (Some l) w' -> holds (w_heap w) l x -> h_kind x = KShared -> release_safe (w_heap w) l.
  (** So it is whenever a statement is executed. *)
  Fixpoint weak_safe_run (ops : list (spop V)) (vars : list addr) (w : world (scell V)) : Prop :=
    match ops with
    | [] => True
    | op :: ops =>
        weak_safe op vars w /\
        match exec_spop op vars w with
        | Done vars' w' => weak_safe_run ops vars' w'
        | Fault _ => True
        end
    end.

  (** The statements by which all variables go out of scope. *)
  Definition drops (vars : list addr) : list (spop V) := repeat (SoDrop 0) (length vars).

  (** What a user sees of the handle at [l]: get(), use_count(), unique(),
      conversion to bool, and (shared_ptr) the live object. *)
  Definition handle_shows (w : world (scell V)) (l : loc) (x : handle) : Prop :=
    let n := match h_rc x with Some c => owners (w_heap w) c | None => 0 end in
    sp_get l w = Done (h_rc x) w /\
    sp_use_count cf l w = Done (Z.of_nat n) w /\
    sp_unique cf l w = Done (bool_decide (n = 1)) w /\
    sp_bool cf l w = Done (bool_decide (0 < n)) w /\
    forall c, h_kind x = KShared -> h_rc x = Some c ->
      0 < owners (w_heap w) c /\ exists v hs, sp_deref cf l w = Done (c, v, hs) w.
End exec.
