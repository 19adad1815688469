(** * Histories of calls on trees that keep equal values: client programs and
      their meaning *)
From Verif Require Export RbHistSpec RbMultiSpec RbMultiModel.

(** The calls a client can make on a row of trees, which are addressed by
    number.  Every call gets a fresh error object.  Positions are given by
    index; indices past the end mean end().  [hval]: a temporary, or a
    reference to element number [q] of tree number [j]. *)
Inductive mop (V : Type) :=
| MoInsert (i : nat) (x : hval V)         (* insertion behind the equal values *)
| MoInsertLower (i : nat) (x : hval V)    (* insertion in front of the equal values *)
| MoInsertHint (i p : nat) (x : hval V)   (* hinted insertion *)
| MoEmplace (i : nat) (x : hval V)
| MoEmplaceHint (i p : nat) (x : hval V)
| MoEmplaceVals (i : nat) (vs : list V)   (* emplacement of several values in turn *)
| MoEraseKey (i : nat) (x : hval V)
| MoEraseKeys (i : nat) (vs : list V)     (* erase of a range of keys *)
| MoErase (i p : nat)
| MoEraseRange (i p n : nat)
| MoClear (i : nat)
| MoCopy (i j : nat)
| MoMove (i j : nat)
| MoSwap (i j : nat)
| MoFind (i : nat) (x : hval V)
| MoLower (i : nat) (x : hval V)
| MoUpper (i : nat) (x : hval V)
| MoRange (i : nat) (x : hval V)          (* equal_range, and a walk over it *)
| MoCount (i : nat) (x : hval V).
Arguments MoInsert {V}.
Arguments MoInsertLower {V}.
Arguments MoInsertHint {V}.
Arguments MoEmplace {V}.
Arguments MoEmplaceHint {V}.
Arguments MoEmplaceVals {V}.
Arguments MoEraseKey {V}.
Arguments MoEraseKeys {V}.
Arguments MoErase {V}.
Arguments MoEraseRange {V}.
Arguments MoClear {V}.
Arguments MoCopy {V}.
Arguments MoMove {V}.
Arguments MoSwap {V}.
Arguments MoFind {V}.
Arguments MoLower {V}.
Arguments MoUpper {V}.
Arguments MoRange {V}.
Arguments MoCount {V}.

(** What a call returned: nothing, an iterator, given by the element it
    designates ([None]: end()), a number, or a range, given by its elements. *)
Inductive mans (V : Type) :=
| MsNone
| MsIter (u : option V)
| MsNum (n : nat)
| MsList (l : list V).
Arguments MsNone {V}.
Arguments MsIter {V}.
Arguments MsNum {V}.
Arguments MsList {V}.

Section hist.
  Context {V : Type} {L : limit} (cf : cfg V) (comp : V -> V -> bool).
  Notation MT := (M (tcell V)).
  Notation E := (addr * V)%type.

  Definition with_tree (os : list tset) (i : nat) (k : tset -> MT (mans V)) : MT (mans V) :=
    match os !! i with Some o => k o | None => ret MsNone end.
  Definition with_marg (os : list tset) (x : hval V) (k : targ V -> MT (mans V)) : MT (mans V) :=
    let! a := t_get_arg os x in
    match a with Some a => k a | None => ret MsNone end.
  (** read the element at the iterator the call returned *)
  Definition ans_iter (o : tset) (m : MT addr) : MT (mans V) :=
    let! r := m in
    let! u := read_iter o r in
    ret (MsIter u).

  (** erase() is only called for an existing element. *)
  Definition exec_mop (op : mop V) (os : list tset) : MT (mans V) :=
    match op with
    | MoInsert i x => with_tree os i (fun o => with_marg os x (fun a => ans_iter o (insert_equal cf comp o a)))
    | MoInsertLower i x => with_tree os i (fun o => with_marg os x (fun a => ans_iter o (insert_equal_lower cf comp o a)))
    | MoInsertHint i p x => with_tree os i (fun o => with_marg os x (fun a =>
        let! pos := t_iter_at o p in ans_iter o (insert_equal_at cf comp o pos a)))
    | MoEmplace i x => with_tree os i (fun o => with_marg os x (fun a => ans_iter o (emplace_equal cf comp o a)))
    | MoEmplaceHint i p x => with_tree os i (fun o => with_marg os x (fun a =>
        let! pos := t_iter_at o p in ans_iter o (emplace_hint_equal cf comp o pos a)))
    | MoEmplaceVals i vs => with_tree os i (fun o =>
        do! emplace_equal_all cf comp o (map TAVal vs) in ret MsNone)
    | MoEraseKey i x => with_tree os i (fun o => with_marg os x (fun a =>
        let! n := t_erase_key cf comp o a in ret (MsNum n)))
    | MoEraseKeys i vs => with_tree os i (fun o =>
        do! t_erase_keys cf comp o (map TAVal vs) in ret MsNone)
    | MoErase i p => with_tree os i (fun o =>
        let! pos := t_iter_at o p in
        if decide (pos = t_end o) then ret MsNone else ans_iter o (t_erase cf o pos))
    | MoEraseRange i p n => with_tree os i (fun o =>
        let! first := t_iter_at o p in
        let! last := t_iter_at o (p + n) in
        ans_iter o (t_erase_range cf o first last))
    | MoClear i => with_tree os i (fun o => do! t_clear o in ret MsNone)
    | MoCopy i j => with_tree os i (fun o => with_tree os j (fun o2 => do! t_copy cf o o2 in ret MsNone))
    | MoMove i j => with_tree os i (fun o => with_tree os j (fun o2 => do! t_move_assign o o2 in ret MsNone))
    | MoSwap i j => with_tree os i (fun o => with_tree os j (fun o2 => do! t_swap o o2 in ret MsNone))
    | MoFind i x => with_tree os i (fun o => with_marg os x (fun a => ans_iter o (t_find comp o a)))
    | MoLower i x => with_tree os i (fun o => with_marg os x (fun a => ans_iter o (lower_bound comp o a)))
    | MoUpper i x => with_tree os i (fun o => with_marg os x (fun a => ans_iter o (upper_bound comp o a)))
    | MoRange i x => with_tree os i (fun o => with_marg os x (fun a =>
        let! r := equal_range comp o a in
        let! fuel := cell_fuel in
        let! l := t_walk_loop fuel r.2 r.1 in
        ret (MsList l)))
    | MoCount i x => with_tree os i (fun o => with_marg os x (fun a =>
        let! n := t_count comp o a in ret (MsNum n)))
    end.

  (** Run a history; returns what each call reported and returned. *)
  Fixpoint exec_mops (ops : list (mop V)) (os : list tset) : MT (list (option error * mans V)) :=
    match ops with
    | [] => ret []
    | op :: ops =>
        do! put_err None in
        let! a := exec_mop op os in
        let! e := get_err in
        let! rs := exec_mops ops os in
        ret ((e, a) :: rs)
    end.
  (** Create [k] trees and run a history on them. *)
  Definition multi_program (k : nat) (ops : list (mop V)) : MT (list tset * list (option error * mans V)) :=
    let! os := new_sets cf k in
    let! rs := exec_mops ops os in
    ret (os, rs).

  (** ** What the calls mean, on a row of plain lists *)

  (** [v] behind all elements that are not greater; in front of all that are
      not smaller. *)
  Definition put_last (v : V) (l : list V) : list V :=
    filter (fun u => comp v u = false) l ++ v :: filter (fun u => comp v u = true) l.
  Definition put_first (v : V) (l : list V) : list V :=
    filter (fun u => comp u v = true) l ++ v :: filter (fun u => comp u v = false) l.
  (** The positions where [v] can stand; the new element goes to one as close
      to the hint as any. *)
  Definition may_stand (v : V) (l : list V) (j : nat) : Prop :=
    j <= length l /\ (forall u, u ∈ take j l -> comp v u = false) /\ (forall u, u ∈ drop j l -> comp u v = false).
  Definition put_near (p : nat) (v : V) (l l' : list V) : Prop :=
    exists j, may_stand v l j /\ (forall j', may_stand v l j' -> apart (p `min` length l) j <= apart (p `min` length l) j') /\
      l' = take j l ++ v :: drop j l.
  (** The elements that are not equal to [v]. *)
  Definition without (v : V) (l : list V) : list V := filter (fun u => same_rank comp v u = false) l.

  (** [mop_spec op ls e a ls']: a call on trees holding [ls] that reports [e]
      ([None]: success) and returns [a] leaves them holding [ls']. *)
  Definition mop_spec (op : mop V) (ls : list (list V)) (e : option error) (a : mans V) (ls' : list (list V)) : Prop :=
    match op with
    | MoInsert i x | MoEmplace i x =>
        match ls !! i, hval_of ls x with
        | Some l, Some v =>
            match e with
            | None => a = MsIter (Some v) /\ ls' = <[ i := put_last v l ]> ls
            | Some _ => a = MsIter None /\ ls' = ls
            end
        | _, _ => e = None /\ ls' = ls
        end
    | MoInsertLower i x =>
        match ls !! i, hval_of ls x with
        | Some l, Some v =>
            match e with
            | None => a = MsIter (Some v) /\ ls' = <[ i := put_first v l ]> ls
            | Some _ => a = MsIter None /\ ls' = ls
            end
        | _, _ => e = None /\ ls' = ls
        end
    | MoInsertHint i p x | MoEmplaceHint i p x =>
        match ls !! i, hval_of ls x with
        | Some l, Some v =>
            match e with
            | None => a = MsIter (Some v) /\ exists l', put_near p v l l' /\ ls' = <[ i := l' ]> ls
            | Some _ => a = MsIter None /\ ls' = ls
            end
        | _, _ => e = None /\ ls' = ls
        end
    | MoEmplaceVals i vs =>
        match ls !! i with
        | Some l =>
            exists n, match e with None => n = length vs | Some _ => n < length vs end /\
              ls' = <[ i := fold_left (fun l v => put_last v l) (take n vs) l ]> ls
        | None => e = None /\ ls' = ls
        end
    | MoEraseKey i x =>
        e = None /\
        match ls !! i, hval_of ls x with
        | Some l, Some v => a = MsNum (length (ranked comp v l)) /\ ls' = <[ i := without v l ]> ls
        | _, _ => ls' = ls
        end
    | MoEraseKeys i vs => e = None /\ ls' = upd i (fun l => fold_left (fun l v => without v l) vs l) ls
    | MoErase i p =>
        e = None /\
        match ls !! i with
        | Some l => ls' = <[ i := del p 1 l ]> ls /\ (p < length l -> a = MsIter (l !! S p))
        | None => ls' = ls
        end
    | MoEraseRange i p n =>
        e = None /\
        match ls !! i with
        | Some l => ls' = <[ i := del p n l ]> ls /\ a = MsIter (l !! (p + n))
        | None => ls' = ls
        end
    | MoClear i => e = None /\ ls' = upd i (fun _ => []) ls
    | MoCopy i j =>
        match ls !! i, ls !! j with
        | Some _, Some r =>
            if decide (i = j) then e = None /\ ls' = ls else
            ls' = <[ i := match e with None => r | Some _ => [] end ]> ls
        | _, _ => e = None /\ ls' = ls
        end
    | MoMove i j =>
        e = None /\
        match ls !! i, ls !! j with
        | Some _, Some r => ls' = if decide (i = j) then <[ i := [] ]> ls else <[ i := r ]> (<[ j := [] ]> ls)
        | _, _ => ls' = ls
        end
    | MoSwap i j =>
        e = None /\
        match ls !! i, ls !! j with
        | Some l, Some r => ls' = <[ i := r ]> (<[ j := l ]> ls)
        | _, _ => ls' = ls
        end
    | MoFind i x =>
        e = None /\ ls' = ls /\
        match ls !! i, hval_of ls x with
        | Some l, Some v => a = MsIter (head (ranked comp v l))
        | _, _ => True
        end
    | MoLower i x =>
        e = None /\ ls' = ls /\
        match ls !! i, hval_of ls x with
        | Some l, Some v => a = MsIter (head (filter (fun u => comp u v = false) l))
        | _, _ => True
        end
    | MoUpper i x =>
        e = None /\ ls' = ls /\
        match ls !! i, hval_of ls x with
        | Some l, Some v => a = MsIter (head (filter (fun u => comp v u = true) l))
        | _, _ => True
        end
    | MoRange i x =>
        e = None /\ ls' = ls /\
        match ls !! i, hval_of ls x with
        | Some l, Some v => a = MsList (ranked comp v l)
        | _, _ => True
        end
    | MoCount i x =>
        e = None /\ ls' = ls /\
        match ls !! i, hval_of ls x with
        | Some l, Some v => a = MsNum (length (ranked comp v l))
        | _, _ => True
        end
    end.

  Fixpoint mops_spec (ops : list (mop V)) (ls : list (list V)) (rs : list (option error * mans V)) (ls' : list (list V)) : Prop :=
    match ops, rs with
    | [], [] => ls' = ls
    | op :: ops, (e, a) :: rs => exists ls1, mop_spec op ls e a ls1 /\ mops_spec ops ls1 rs ls'
    | _, _ => False
    end.

  (** What a user can observe of a tree. *)
  Definition mset_shows (w : world (tcell V)) (o : tset) (l : list V) : Prop :=
    lsorted comp l /\
    t_size o w = Done (length l) w /\
    t_empty o w = Done (bool_decide (l = [])) w /\
    t_walk o w = Done l w /\
    t_rwalk o w = Done (reverse l) w /\
    (forall v, t_count comp o (TAVal v) w = Done (length (ranked comp v l)) w).

  (** The elements (nodes with their values) that a call may destroy; all
      others must stay where they are. *)
  Definition mop_kills (op : mop V) (xss : list (list E)) (x : E) : Prop :=
    match op with
    | MoEraseKey i k => exists xs v, xss !! i = Some xs /\ x ∈ xs /\ hval_of ((fun xs => xs.*2) <$> xss) k = Some v /\ equivalent comp x.2 v
    | MoEraseKeys i vs => exists xs v, xss !! i = Some xs /\ x ∈ xs /\ v ∈ vs /\ equivalent comp x.2 v
    | MoErase i p => xss !! i ≫= (.!! p) = Some x
    | MoEraseRange i p n => exists xs q, xss !! i = Some xs /\ p <= q < p + n /\ xs !! q = Some x
    | MoClear i => exists xs, xss !! i = Some xs /\ x ∈ xs
    | MoCopy i j => i <> j /\ exists xs, xss !! i = Some xs /\ x ∈ xs
    | MoMove i _ => exists xs, xss !! i = Some xs /\ x ∈ xs
    | _ => False
    end.

  (** The heap fragment [hv] is exactly the trees [ls], each given by its
      header and its elements. *)
  Fixpoint msets_own (al : alloc_id) (ls : list (addr * list E)) (hv : gmap addr (tcell V)) : Prop :=
    match ls with
    | [] => hv = ∅
    | (hdr, xs) :: R => exists h1 h2, hv = h1 ∪ h2 /\ h1 ##ₘ h2 /\ mset_own comp al hdr xs h1 /\ msets_own al R h2
    end.
End hist.
