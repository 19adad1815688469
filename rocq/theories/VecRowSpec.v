(** * Histories over several vectors: client programs and their meaning *)
From Verif Require Export VecHistSpec.

(** The calls a client can make on a row of vectors, which are addressed by
    number.  Every call gets a fresh error object.  Positions are given by
    index; an index past the end means end(). *)
Inductive rop (V : Type) :=
| RoOne (i : nat) (op : vop V)            (* a call on v_i with values that are not elements *)
| RoPushElem (i j q : nat)                (* v_i.push_back_nothrow(err, v_j[q]) *)
| RoInsertElem (i p j q : nat)            (* v_i.insert_nothrow(err, v_i.begin()+p, v_j[q]) *)
| RoResizeElem (i n j q : nat)            (* v_i.resize_nothrow(err, n, v_j[q]) *)
| RoAssignElem (i n j q : nat)            (* v_i.assign_nothrow(err, n, v_j[q]) *)
| RoInsertFrom (i p j a b : nat)          (* v_i.insert_nothrow(err, v_i.begin()+p, v_j.begin()+a, v_j.begin()+b) *)
| RoAssignFrom (i j a b : nat)            (* v_i.assign_nothrow(err, v_j.begin()+a, v_j.begin()+b) *)
| RoCopy (i j : nat)                      (* v_i.copy_nothrow(err, v_j) *)
| RoThrowingCopy (i j : nat)              (* v_i = v_j, with exceptions *)
| RoMove (i j : nat)                      (* v_i = std::move(v_j) *)
| RoSwap (i j : nat).                     (* v_i.swap(v_j) *)
Arguments RoOne {V}.
Arguments RoPushElem {V}.
Arguments RoInsertElem {V}.
Arguments RoResizeElem {V}.
Arguments RoAssignElem {V}.
Arguments RoInsertFrom {V}.
Arguments RoAssignFrom {V}.
Arguments RoCopy {V}.
Arguments RoThrowingCopy {V}.
Arguments RoMove {V}.
Arguments RoSwap {V}.

Section row.
  Context {V : Type} (cf : cfg V).
  Notation MV := (M (vblock V)).
  Notation row := (list vec_obj).

  Definition with_vec (vs : row) (i : nat) (k : vec_obj -> MV row) : MV row :=
    match vs !! i with Some v => k v | None => ret vs end.
  Definition with_two (vs : row) (i j : nat) (k : vec_obj -> vec_obj -> MV row) : MV row :=
    with_vec vs i (fun v => with_vec vs j (fun o => k v o)).
  (** a reference to element [q] of [v_j]; without such an element no call is made *)
  Definition with_elem (vs : row) (o : vec_obj) (q : nat) (k : arg V -> MV row) : MV row :=
    let! n := vec_size o in
    if decide (q < n) then
      let! p := vec_index cf o q in
      k (ARef p)
    else ret vs.

  (** the elements that the iterators from [first] on refer to *)
  Fixpoint refs (first : ptr) (n : nat) : list (arg V) :=
    match n with
    | 0 => []
    | S n => ARef first :: refs (match first with Null => Null | Ptr b o => Ptr b (S o) end) n
    end.

  Definition put (vs : row) (i : nat) (v : vec_obj) : MV row := ret (<[ i := v ]> vs).

  (** push_back, insert and resize are only called with elements of another
      vector (see C05); the other calls also with elements of the
      vector itself. *)
  Definition exec_rop (op : rop V) (vs : row) : MV row :=
    match op with
    | RoOne i op => with_vec vs i (fun v => let! v := exec_op cf op v in put vs i v)
    | RoPushElem i j q => if decide (i = j) then ret vs else
        with_two vs i j (fun v o => with_elem vs o q (fun a =>
          let! v := vec_push_back cf v a in put vs i v))
    | RoInsertElem i p j q => if decide (i = j) then ret vs else
        with_two vs i j (fun v o => with_elem vs o q (fun a =>
          let! pos := pos_at v p in
          let! r := vec_insert cf v pos a in put vs i r.2))
    | RoResizeElem i n j q => if decide (i = j) then ret vs else
        with_two vs i j (fun v o => with_elem vs o q (fun a =>
          let! v := vec_resize cf v n a in put vs i v))
    | RoAssignElem i n j q =>
        with_two vs i j (fun v o => with_elem vs o q (fun a =>
          let! v := vec_assign_n cf v n a in put vs i v))
    | RoInsertFrom i p j a b => if decide (i = j) then ret vs else
        with_two vs i j (fun v o =>
          let! pos := pos_at v p in
          let! first := pos_at o a in
          let! last := pos_at o b in
          let! v := vec_insert_range cf v pos (refs first (poff last - poff first)) in
          put vs i v)
    | RoAssignFrom i j a b => if decide (a <= b) then
        with_two vs i j (fun v o =>
          let! first := pos_at o a in
          let! last := pos_at o b in
          let! v := vec_assign_ptrs cf v first last in
          put vs i v)
        else ret vs
    | RoCopy i j => with_two vs i j (fun v o => let! v := vec_copy cf v o in put vs i v)
    | RoThrowingCopy i j => with_two vs i j (fun v o =>
        let! r := hvec_copy_assign cf v o in
        do! put_err r.2 in                  (* the client catches the exception *)
        put vs i r.1)
    | RoMove i j => with_two vs i j (fun v o =>
        if decide (i = j) then
          let! v := vec_move_assign_self v in put vs i v
        else
          let! r := vec_move_assign v o in
          ret (<[ i := r.1 ]> (<[ j := r.2 ]> vs)))
    | RoSwap i j => with_two vs i j (fun v o =>
        if decide (i = j) then ret vs else      (* every member is swapped with itself *)
        let r := vec_swap v o in
        ret (<[ i := r.1 ]> (<[ j := r.2 ]> vs)))
    end.

  (** Run a history; returns the vectors and what each call reported. *)
  Fixpoint exec_rops (ops : list (rop V)) (vs : row) : MV (row * list (option error)) :=
    match ops with
    | [] => ret (vs, [])
    | op :: ops =>
        do! put_err None in
        let! vs := exec_rop op vs in
        let! e := get_err in
        let! r := exec_rops ops vs in
        ret (r.1, e :: r.2)
    end.

  Fixpoint destroy_row (vs : row) : MV unit :=
    match vs with
    | [] => ret tt
    | v :: vs => do! vec_destroy v in destroy_row vs
    end.

  (** ** What the calls mean, on a row of plain lists *)

  (** a change of list number [i] only, by [R]; no call if there is no such list *)
  Definition on_vec (i : nat) (R : list V -> option error -> list V -> Prop)
    (ls : list (list V)) (e : option error) (ls' : list (list V)) : Prop :=
    match ls !! i with
    | Some l => exists l', R l e l' /\ ls' = <[ i := l' ]> ls
    | None => e = None /\ ls' = ls
    end.
  Definition no_call (ls : list (list V)) (e : option error) (ls' : list (list V)) : Prop := e = None /\ ls' = ls.

  (** all of [src] on success, some of it on failure *)
  Definition becomes (src : list V) (_ : list V) (e : option error) (l' : list V) : Prop :=
    match e with
    | None => l' = src
    | Some _ => exists k, k <= length src /\ l' = take k src
    end.

  Definition sub (a b : nat) (l : list V) : list V := take (b - a) (drop a l).

  Definition rop_spec (op : rop V) (ls : list (list V)) (e : option error) (ls' : list (list V)) : Prop :=
    match op with
    | RoOne i op => on_vec i (vop_spec op) ls e ls'
    | RoPushElem i j q =>
        match ls !! j ≫= (.!! q) with
        | Some x => if decide (i = j) then no_call ls e ls' else on_vec i (vop_spec (OpPush x)) ls e ls'
        | None => no_call ls e ls'
        end
    | RoInsertElem i p j q =>
        match ls !! j ≫= (.!! q) with
        | Some x => if decide (i = j) then no_call ls e ls' else on_vec i (vop_spec (OpInsert p x)) ls e ls'
        | None => no_call ls e ls'
        end
    | RoResizeElem i n j q =>
        match ls !! j ≫= (.!! q) with
        | Some x => if decide (i = j) then no_call ls e ls' else on_vec i (vop_spec (OpResize n x)) ls e ls'
        | None => no_call ls e ls'
        end
    | RoAssignElem i n j q =>
        match ls !! j ≫= (.!! q) with
        | Some x => on_vec i (vop_spec (OpAssign n x)) ls e ls'
        | None => no_call ls e ls'
        end
    | RoInsertFrom i p j a b =>
        match ls !! j with
        | Some src => if decide (i = j) then no_call ls e ls' else on_vec i (vop_spec (OpInsertRange p (sub a b src))) ls e ls'
        | None => no_call ls e ls'
        end
    | RoAssignFrom i j a b =>
        match ls !! j with
        | Some src => if decide (a <= b) then on_vec i (becomes (sub a b src)) ls e ls' else no_call ls e ls'
        | None => no_call ls e ls'
        end
    | RoCopy i j =>
        match ls !! j with
        | Some src => on_vec i (becomes src) ls e ls'
        | None => no_call ls e ls'
        end
    | RoThrowingCopy i j =>
        match ls !! j with
        | Some src => on_vec i (fun l e l' => l' = match e with None => src | Some _ => l end) ls e ls'
        | None => no_call ls e ls'
        end
    | RoMove i j =>
        e = None /\
        match ls !! i, ls !! j with
        | Some _, Some src => ls' = if decide (i = j) then <[ i := [] ]> ls else <[ i := src ]> (<[ j := [] ]> ls)
        | _, _ => ls' = ls
        end
    | RoSwap i j =>
        e = None /\
        match ls !! i, ls !! j with
        | Some l, Some r => ls' = <[ i := r ]> (<[ j := l ]> ls)
        | _, _ => ls' = ls
        end
    end.

  Fixpoint rops_spec (ops : list (rop V)) (ls : list (list V)) (es : list (option error)) (ls' : list (list V)) : Prop :=
    match ops, es with
    | [], [] => ls' = ls
    | op :: ops, e :: es => exists ls1, rop_spec op ls e ls1 /\ rops_spec ops ls1 es ls'
    | _, _ => False
    end.

  (** Histories covered: as for one vector. *)
  Definition rop_legal (op : rop V) : Prop :=
    match op with
    | RoOne _ op => vop_legal cf op
    | RoResizeElem _ n _ _ | RoAssignElem _ n _ _ => bytes_fit cf n
    | RoInsertElem _ _ _ _ | RoInsertFrom _ _ _ _ _ => c_kind cf = Nothrow
    | _ => True
    end.

  (** The vectors a call may change; all others are not touched. *)
  Definition rop_targets (op : rop V) : list nat :=
    match op with
    | RoOne i _ | RoPushElem i _ _ | RoInsertElem i _ _ _ | RoResizeElem i _ _ _ | RoAssignElem i _ _ _
    | RoInsertFrom i _ _ _ _ | RoAssignFrom i _ _ _ | RoCopy i _ | RoThrowingCopy i _ => [i]
    | RoMove i j | RoSwap i j => [i; j]
    end.

  (** ** Ownership: each vector owns its own part of the heap, and all have
      default constructed allocators (see C12 and C63 for others). *)
  Definition own1 (v : vec_obj) (l : list V) (h : gmap addr (vblock V)) : Prop :=
    m_allocator v = c_dflt cf /\ exists cap, vec_owns cf v l cap h.
  Fixpoint row_own (vs : row) (ls : list (list V)) (hv : gmap addr (vblock V)) : Prop :=
    match vs, ls with
    | [], [] => hv = ∅
    | v :: vs, l :: ls => exists h1 h2, own1 v l h1 /\ row_own vs ls h2 /\ h1 ##ₘ h2 /\ hv = h1 ∪ h2
    | _, _ => False
    end.
End row.
