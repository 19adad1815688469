(** * Histories of list operations: client programs and their meaning *)
From Verif Require Export ListSpec.

(** A value argument of a call: a temporary, or a reference to element number
    [q] of list number [j]. *)
Inductive hval (V : Type) :=
| HVal (x : V)
| HElem (j q : nat).
Arguments HVal {V}.
Arguments HElem {V}.

(** The calls a client can make on a row of lists, which are addressed by
    number.  Every call gets a fresh error object.  Positions are given by
    index; indices past the end mean end(). *)
Inductive lop (V : Type) :=
| LoPushBack (i : nat) (x : hval V)
| LoPushFront (i : nat) (x : hval V)
| LoInsert (i p : nat) (x : hval V)
| LoInsertN (i p n : nat) (x : hval V)
| LoInsertVals (i p : nat) (xs : list V)
| LoErase (i p : nat)
| LoEraseRange (i p n : nat)            (* l_i.erase(p, p + n) *)
| LoPopBack (i : nat)
| LoPopFront (i : nat)
| LoClear (i : nat)
| LoAssign (i n : nat) (x : hval V)
| LoAssignVals (i : nat) (xs : list V)
| LoCopy (i j : nat)                    (* l_i.copy_nothrow(err, l_j) *)
| LoMove (i j : nat)                    (* l_i = std::move(l_j) *)
| LoSwap (i j : nat)
| LoSplice (i p j : nat)                (* l_i.splice(p, l_j) *)
| LoSpliceOne (i p j q : nat)           (* l_i.splice(p, l_j, q) *)
| LoSpliceRange (i p j q n : nat)       (* l_i.splice(p, l_j, q, q + n) *)
| LoMerge (i j : nat)
| LoSort (i : nat).
Arguments LoPushBack {V}.
Arguments LoPushFront {V}.
Arguments LoInsert {V}.
Arguments LoInsertN {V}.
Arguments LoInsertVals {V}.
Arguments LoErase {V}.
Arguments LoEraseRange {V}.
Arguments LoPopBack {V}.
Arguments LoPopFront {V}.
Arguments LoClear {V}.
Arguments LoAssign {V}.
Arguments LoAssignVals {V}.
Arguments LoCopy {V}.
Arguments LoMove {V}.
Arguments LoSwap {V}.
Arguments LoSplice {V}.
Arguments LoSpliceOne {V}.
Arguments LoSpliceRange {V}.
Arguments LoMerge {V}.
Arguments LoSort {V}.

Section hist.
  Context {V : Type} (cf : cfg V) (comp : V -> V -> bool).
  Notation ML := (M (lcell V)).
  Notation E := (addr * V)%type.

  (** The client steps from begin() until it has made [i] steps or is at end(). *)
  Fixpoint step_iter (e it : addr) (i : nat) : ML addr :=
    match i with
    | 0 => ret it
    | S i =>
        let! q := it_eq cf it e in
        if (q : bool) then ret it else
        let! it := it_inc cf it in
        step_iter e it i
    end.
  Definition iter_at (o : lst_obj) (i : nat) : ML addr :=
    let! b := lst_begin cf o in
    let! e := lst_end cf o in
    step_iter e b i.

  Definition get_arg (os : list lst_obj) (x : hval V) : ML (option (larg V)) :=
    match x with
    | HVal v => ret (Some (LAVal v))
    | HElem j q =>
        match os !! j with
        | None => ret None
        | Some o =>
            let! it := iter_at o q in
            let! e := lst_end cf o in
            let! b := it_eq cf it e in
            if (b : bool) then ret None else ret (Some (LARef it))
        end
    end.

  Definition with_lst (os : list lst_obj) (i : nat) (k : lst_obj -> ML unit) : ML unit :=
    match os !! i with Some o => k o | None => ret tt end.
  Definition with_arg (os : list lst_obj) (x : hval V) (k : larg V -> ML unit) : ML unit :=
    let! a := get_arg os x in
    match a with Some a => k a | None => ret tt end.

  (** Some calls are only made when the library allows them: erase() only
      for an existing element, pop only on non-empty lists, copy, merge and
      splice(pos, other) only with another list, splice of a range within one
      list only to a position outside the range and not right behind it, sort
      only for fewer than 2^64 elements (the heap of the model, unlike that of
      the machine, could hold more). *)
  Definition exec_lop (op : lop V) (os : list lst_obj) : ML unit :=
    match op with
    | LoPushBack i x => with_lst os i (fun o => with_arg os x (lst_push_back cf o))
    | LoPushFront i x => with_lst os i (fun o => with_arg os x (lst_push_front cf o))
    | LoInsert i p x => with_lst os i (fun o => with_arg os x (fun a =>
        let! it := iter_at o p in
        do! lst_insert cf o it a in ret tt))
    | LoInsertN i p n x => with_lst os i (fun o => with_arg os x (fun a =>
        let! it := iter_at o p in
        lst_insert_n cf o it n a))
    | LoInsertVals i p xs => with_lst os i (fun o =>
        let! it := iter_at o p in
        lst_insert_range cf o it (map LAVal xs))
    | LoErase i p => with_lst os i (fun o =>
        let! it := iter_at o p in
        let! e := lst_end cf o in
        let! q := it_eq cf it e in
        if (q : bool) then ret tt else
        do! lst_erase cf o it in ret tt)
    | LoEraseRange i p n => with_lst os i (fun o =>
        let! first := iter_at o p in
        let! last := iter_at o (p + n) in
        do! lst_erase_range cf o first last in ret tt)
    | LoPopBack i => with_lst os i (fun o =>
        let! e := lst_empty o in
        if (e : bool) then ret tt else lst_pop_back cf o)
    | LoPopFront i => with_lst os i (fun o =>
        let! e := lst_empty o in
        if (e : bool) then ret tt else lst_pop_front cf o)
    | LoClear i => with_lst os i (lst_clear cf)
    | LoAssign i n x => with_lst os i (fun o => with_arg os x (fun a => lst_assign_n cf o n a))
    | LoAssignVals i xs => with_lst os i (fun o => lst_assign_args cf o (map LAVal xs))
    | LoCopy i j => with_lst os i (fun o => with_lst os j (fun o2 =>
        if decide (i = j) then ret tt else lst_copy cf o o2))
    | LoMove i j => with_lst os i (fun o => with_lst os j (fun o2 => lst_move_assign cf o o2))
    | LoSwap i j => with_lst os i (fun o => with_lst os j (fun o2 => lst_swap cf o o2))
    | LoSplice i p j => with_lst os i (fun o => with_lst os j (fun o2 =>
        if decide (i = j) then ret tt else
        let! it := iter_at o p in
        lst_splice cf o it o2))
    | LoSpliceOne i p j q => with_lst os i (fun o => with_lst os j (fun o2 =>
        let! pos := iter_at o p in
        let! it := iter_at o2 q in
        let! e := lst_end cf o2 in
        let! b := it_eq cf it e in
        if (b : bool) then ret tt else lst_splice_one cf pos it))
    | LoSpliceRange i p j q n => with_lst os i (fun o => with_lst os j (fun o2 =>
        let! sz := lst_size cf o in
        if decide (i = j /\ q <= p `min` sz /\ p `min` sz <= q + n) then ret tt else
        let! pos := iter_at o p in
        let! first := iter_at o2 q in
        let! last := iter_at o2 (q + n) in
        lst_splice_range cf pos first last))
    | LoMerge i j => with_lst os i (fun o => with_lst os j (fun o2 =>
        if decide (i = j) then ret tt else lst_merge cf comp o o2))
    | LoSort i => with_lst os i (fun o =>
        let! sz := lst_size cf o in
        if decide (N.of_nat sz < 2^64)%N then lst_sort cf comp o else ret tt)
    end.

  (** Run a history; returns what each call reported. *)
  Fixpoint exec_lops (ops : list (lop V)) (os : list lst_obj) : ML (list (option error)) :=
    match ops with
    | [] => ret []
    | op :: ops =>
        do! put_err None in
        do! exec_lop op os in
        let! e := get_err in
        let! es := exec_lops ops os in
        ret (e :: es)
    end.

  (** ** What the calls mean, on a row of plain lists *)

  Definition hval_of (ls : list (list V)) (x : hval V) : option V :=
    match x with
    | HVal v => Some v
    | HElem j q => ls !! j ≫= (.!! q)
    end.

  (** Apply a change to list number [i], if there is one. *)
  Definition upd (i : nat) (f : list V -> list V) (ls : list (list V)) : list (list V) := alter f i ls.
  Definition ins (p : nat) (m l : list V) : list V := take p l ++ m ++ drop p l.
  Definition del (p n : nat) (l : list V) : list V := take p l ++ drop (p + n) l.

  (** A stable arrangement of [l] in ascending order. *)
  Definition stably_sorted (l l' : list V) : Prop :=
    l' ≡ₚ l /\
    (swo comp -> lsorted comp l' /\ forall v, filter (fun y => same_rank comp v y = true) l' = filter (fun y => same_rank comp v y = true) l).

  (** [lop_spec op ls e ls']: a call on lists holding [ls] that reports [e]
      ([None]: success) leaves them holding [ls']. *)
  Definition lop_spec (op : lop V) (ls : list (list V)) (e : option error) (ls' : list (list V)) : Prop :=
    match op with
    | LoPushBack i x =>
        ls' = match e, hval_of ls x with None, Some v => upd i (fun l => l ++ [v]) ls | _, _ => ls end
    | LoPushFront i x =>
        ls' = match e, hval_of ls x with None, Some v => upd i (fun l => v :: l) ls | _, _ => ls end
    | LoInsert i p x =>
        ls' = match e, hval_of ls x with None, Some v => upd i (ins p [v]) ls | _, _ => ls end
    | LoInsertN i p n x =>
        match hval_of ls x with
        | None => e = None /\ ls' = ls
        | Some v =>
            match e with
            | None => ls' = upd i (ins p (replicate n v)) ls
            | Some _ => exists k, k < n /\ ls' = upd i (ins p (replicate k v)) ls
            end
        end
    | LoInsertVals i p xs =>
        (* the values end up in reverse order, see C20 *)
        match e with
        | None => ls' = upd i (ins p (reverse xs)) ls
        | Some _ => exists k, k < length xs /\ ls' = upd i (ins p (reverse (take k xs))) ls
        end
    | LoErase i p => e = None /\ ls' = upd i (del p 1) ls
    | LoEraseRange i p n => e = None /\ ls' = upd i (del p n) ls
    | LoPopBack i => e = None /\ ls' = upd i (fun l => take (length l - 1) l) ls
    | LoPopFront i => e = None /\ ls' = upd i (drop 1) ls
    | LoClear i => e = None /\ ls' = upd i (fun _ => []) ls
    | LoAssign i n x =>
        match hval_of ls x with
        | None => e = None /\ ls' = ls
        | Some v =>
            match e with
            | None => ls' = upd i (fun _ => replicate n v) ls
            | Some _ => exists k, k < n /\ ls' = upd i (fun _ => replicate k v) ls
            end
        end
    | LoAssignVals i xs =>
        match e with
        | None => ls' = upd i (fun _ => xs) ls
        | Some _ => exists k, k < length xs /\ ls' = upd i (fun _ => take k xs) ls
        end
    | LoCopy i j =>
        match ls !! j with
        | None => e = None /\ ls' = ls
        | Some src =>
            match e with
            | None => ls' = upd i (fun _ => src) ls
            | Some _ => exists k, k < length src /\ ls' = upd i (fun _ => take k src) ls
            end
        end
    | LoMove i j =>
        e = None /\
        match ls !! i, ls !! j with
        | Some _, Some r => ls' = if decide (i = j) then <[ i := [] ]> ls else <[ i := r ]> (<[ j := [] ]> ls)
        | _, _ => ls' = ls
        end
    | LoSwap i j =>
        e = None /\
        match ls !! i, ls !! j with
        | Some l, Some r => ls' = <[ i := r ]> (<[ j := l ]> ls)
        | _, _ => ls' = ls
        end
    | LoSplice i p j =>
        e = None /\
        match ls !! i, ls !! j with
        | Some l, Some r => ls' = if decide (i = j) then ls else <[ i := ins p r l ]> (<[ j := [] ]> ls)
        | _, _ => ls' = ls
        end
    | LoSpliceOne i p j q =>
        e = None /\
        match ls !! i, ls !! j ≫= (.!! q) with
        | Some l, Some v =>
            ls' = if decide (i = j)
                  then upd i (fun l => if decide (q < p) then del q 1 (ins p [v] l) else ins p [v] (del q 1 l)) ls
                  else upd i (ins p [v]) (upd j (del q 1) ls)
        | _, _ => ls' = ls
        end
    | LoSpliceRange i p j q n =>
        e = None /\
        match ls !! i, ls !! j with
        | Some l, Some r =>
            let m := take n (drop q r) in
            ls' = if decide (i = j)
                  then if decide (p `min` length l < q) then upd i (fun l => ins p m (del q n l)) ls
                       else if decide (q + n < p `min` length l) then upd i (fun l => del q n (ins p m l)) ls
                       else ls
                  else upd i (ins p m) (upd j (del q n) ls)
        | _, _ => ls' = ls
        end
    | LoMerge i j =>
        e = None /\
        match ls !! i, ls !! j with
        | Some l, Some r =>
            if decide (i = j) then ls' = ls else
            exists l', ls' = <[ i := l' ]> (<[ j := [] ]> ls) /\ l' ≡ₚ l ++ r /\
              (swo comp -> lsorted comp l -> lsorted comp r -> stably_sorted (l ++ r) l')
        | _, _ => ls' = ls
        end
    | LoSort i =>
        e = None /\
        match ls !! i with
        | Some l =>
            if decide (N.of_nat (length l) < 2^64)%N
            then exists l', ls' = <[ i := l' ]> ls /\ stably_sorted l l'
            else ls' = ls
        | None => ls' = ls
        end
    end.

  Fixpoint lops_spec (ops : list (lop V)) (ls : list (list V)) (es : list (option error)) (ls' : list (list V)) : Prop :=
    match ops, es with
    | [], [] => ls' = ls
    | op :: ops, e :: es => exists ls1, lop_spec op ls e ls1 /\ lops_spec ops ls1 es ls'
    | _, _ => False
    end.

  (** What a user can observe of a list. *)
  Definition lst_shows (w : world (lcell V)) (o : lst_obj) (l : list V) : Prop :=
    lst_size cf o w = Done (length l) w /\
    lst_empty o w = Done (bool_decide (l = [])) w /\
    lst_walk cf o w = Done l w /\
    lst_rwalk cf o w = Done (reverse l) w /\
    (forall x l0, l = x :: l0 -> lst_front cf o w = Done x w) /\
    (forall x l0, l = l0 ++ [x] -> lst_back cf o w = Done x w).

  (** The elements (nodes with their values) that a successful or failing call
      may destroy; all others must stay where they are. *)
  Definition lop_kills (op : lop V) (xss : list (list E)) (x : E) : Prop :=
    match op with
    | LoErase i p => xss !! i ≫= (.!! p) = Some x
    | LoEraseRange i p n => exists xs, xss !! i = Some xs /\ x ∈ take n (drop p xs)
    | LoPopBack i => xss !! i ≫= last = Some x
    | LoPopFront i => xss !! i ≫= head = Some x
    | LoClear i | LoAssign i _ _ | LoAssignVals i _ | LoCopy i _ | LoMove i _ => exists xs, xss !! i = Some xs /\ x ∈ xs
    | _ => False
    end.
End hist.
