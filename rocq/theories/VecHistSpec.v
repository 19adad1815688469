(** * Histories of vector operations: client programs and their meaning *)
From Verif Require Export VecSpec.

(** The calls a client can make on one vector.  Every call gets a fresh error
    object; positions are given by index (clipped to the current size, so that
    every history is executable). *)
Inductive vop (V : Type) :=
| OpPush (x : V)                       (* push_back_nothrow(err, x) *)
| OpEmplace (x : V)                    (* emplace_back_nothrow(err, x) *)
| OpInsertEnd (x : V)                  (* insert_nothrow(err, end(), x) *)
| OpInsert (i : nat) (x : V)           (* insert_nothrow(err, begin()+i, x) *)
| OpInsertRange (i : nat) (xs : list V)
| OpReserve (n : nat)
| OpShrink
| OpResize (n : nat) (x : V)
| OpAssign (n : nat) (x : V)
| OpAssignRange (xs : list V)          (* assign_nothrow(err, first, last), input iterators *)
| OpSelfCopy                           (* v.copy_nothrow(err, v) *)
| OpClear.
Arguments OpPush {V}.
Arguments OpEmplace {V}.
Arguments OpInsertEnd {V}.
Arguments OpInsert {V}.
Arguments OpInsertRange {V}.
Arguments OpReserve {V}.
Arguments OpShrink {V}.
Arguments OpResize {V}.
Arguments OpAssign {V}.
Arguments OpAssignRange {V}.
Arguments OpSelfCopy {V}.
Arguments OpClear {V}.

Section hist.
  Context {V : Type} (cf : cfg V).
  Notation MV := (M (vblock V)).

  (** The iterator begin() + i. *)
  Definition pos_at (v : vec_obj) (i : nat) : MV ptr :=
    let! n := vec_size v in
    padd (vec_begin v) (i `min` n).

  Definition exec_op (op : vop V) (v : vec_obj) : MV vec_obj :=
    match op with
    | OpPush x => vec_push_back cf v (AVal x)
    | OpEmplace x => vec_emplace_back cf v (AVal x)
    | OpInsertEnd x => let! r := vec_insert cf v (vec_end v) (AVal x) in ret r.2
    | OpInsert i x =>
        let! p := pos_at v i in
        let! r := vec_insert cf v p (AVal x) in ret r.2
    | OpInsertRange i xs =>
        let! p := pos_at v i in
        vec_insert_range cf v p (map AVal xs)
    | OpReserve n => vec_reserve cf v n
    | OpShrink => vec_shrink_to_fit cf v
    | OpResize n x => vec_resize cf v n (AVal x)
    | OpAssign n x => vec_assign_n cf v n (AVal x)
    | OpAssignRange xs => vec_assign_input cf v (map AVal xs)
    | OpSelfCopy => vec_copy cf v v
    | OpClear => vec_clear v
    end.

  (** Run a history; returns the vector and what each call reported. *)
  Fixpoint exec_ops (ops : list (vop V)) (v : vec_obj) : MV (vec_obj * list (option error)) :=
    match ops with
    | [] => ret (v, [])
    | op :: ops =>
        do! put_err None in
        let! v := exec_op op v in
        let! e := get_err in
        let! r := exec_ops ops v in
        ret (r.1, e :: r.2)
    end.

  (** ** What the calls mean, on plain lists

      [vop_spec op l e l']: a call on a vector holding [l] that reports [e]
      ([None]: success) leaves it holding [l']. *)
  Definition vop_spec (op : vop V) (l : list V) (e : option error) (l' : list V) : Prop :=
    match op with
    | OpPush x | OpEmplace x | OpInsertEnd x =>
        l' = match e with None => l ++ [x] | Some _ => l end
    | OpInsert i x =>
        l' = match e with None => take i l ++ [x] ++ drop i l | Some _ => l end
    | OpInsertRange i xs =>
        match e with
        | None => l' = take i l ++ xs ++ drop i l
        | Some _ => exists k, k < length xs /\ l' = take i l ++ take k xs ++ drop i l
        end
    | OpReserve _ | OpShrink => l' = l
    | OpResize n x =>
        if decide (n <= length l) then e = None /\ l' = take n l else
        match e with
        | None => l' = l ++ replicate (n - length l) x
        | Some _ => exists k, k < n - length l /\ l' = l ++ replicate k x
        end
    | OpAssign n x =>
        match e with
        | None => l' = replicate n x
        | Some _ => exists k, k <= n /\ l' = replicate k x
        end
    | OpAssignRange xs =>
        match e with
        | None => l' = xs
        | Some _ => exists k, k < length xs /\ l' = take k xs
        end
    | OpSelfCopy =>
        match e with
        | None => l' = l
        | Some _ => exists k, k <= length l /\ l' = take k l
        end
    | OpClear => e = None /\ l' = []
    end.

  Fixpoint vops_spec (ops : list (vop V)) (l : list V) (es : list (option error)) (l' : list V) : Prop :=
    match ops, es with
    | [], [] => l' = l
    | op :: ops, e :: es => exists l1, vop_spec op l e l1 /\ vops_spec ops l1 es l'
    | _, _ => False
    end.

  (** Histories covered: requested byte counts fit in a size_t; insertion in
      front of existing elements only for element types whose copy cannot
      fail (C04 shows why). *)
  Definition bytes_fit (n : nat) : Prop := (N.of_nat n * c_sizeof cf < 2^64)%N.
  Definition vop_legal (op : vop V) : Prop :=
    match op with
    | OpReserve n | OpResize n _ | OpAssign n _ => bytes_fit n
    | OpInsert _ _ | OpInsertRange _ _ => c_kind cf = Nothrow
    | _ => True
    end.

  (** The platform cannot provide blocks of a third of the address space, so
      the growth computation does not overflow. *)
  Definition growth_ok : Prop := (3 * (c_max cf + 1) < 2^64)%N.

  (** What a user can observe of a vector in a given state. *)
  Definition vec_shows (w : world (vblock V)) (v : vec_obj) (l : list V) : Prop :=
    vec_size v w = Done (length l) w /\
    (exists cap, vec_capacity v w = Done cap w /\ length l <= cap) /\
    vec_empty v = bool_decide (l = []) /\
    (forall i x, l !! i = Some x -> vec_at cf v i w = Done x w) /\
    (forall x l0, l = x :: l0 -> vec_front cf v w = Done x w) /\
    (forall x l0, l = l0 ++ [x] -> vec_back cf v w = Done x w).
End hist.
