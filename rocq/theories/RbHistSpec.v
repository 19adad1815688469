(** * Histories of set operations: client programs and their meaning *)
From Verif Require Export RbSpec ListHistSpec.

(** The calls a client can make on a row of sets, which are addressed by
    number.  Every call gets a fresh error object.  Positions are given by
    index; indices past the end mean end().  [hval]: a temporary, or a
    reference to element number [q] of set number [j]. *)
Inductive sop (V : Type) :=
| SoInsert (i : nat) (x : hval V)         (* s_i.insert_nothrow(err, x) *)
| SoInsertHint (i p : nat) (x : hval V)   (* hinted unique insertion *)
| SoInsertVals (i : nat) (vs : list V)    (* unique insertion of a range *)
| SoEmplace (i : nat) (x : hval V)
| SoEmplaceHint (i p : nat) (x : hval V)
| SoEraseKey (i : nat) (x : hval V)       (* s_i.erase(x) *)
| SoErase (i p : nat)                     (* s_i.erase(p) *)
| SoEraseRange (i p n : nat)              (* s_i.erase(p, p + n) *)
| SoClear (i : nat)
| SoCopy (i j : nat)                      (* s_i.copy_nothrow(err, s_j) *)
| SoMove (i j : nat)                      (* s_i = std::move(s_j) *)
| SoSwap (i j : nat)
| SoFind (i : nat) (x : hval V)
| SoLower (i : nat) (x : hval V)
| SoUpper (i : nat) (x : hval V)
| SoCount (i : nat) (x : hval V).
Arguments SoInsert {V}.
Arguments SoInsertHint {V}.
Arguments SoInsertVals {V}.
Arguments SoEmplace {V}.
Arguments SoEmplaceHint {V}.
Arguments SoEraseKey {V}.
Arguments SoErase {V}.
Arguments SoEraseRange {V}.
Arguments SoClear {V}.
Arguments SoCopy {V}.
Arguments SoMove {V}.
Arguments SoSwap {V}.
Arguments SoFind {V}.
Arguments SoLower {V}.
Arguments SoUpper {V}.
Arguments SoCount {V}.

(** What a call returned: nothing, an iterator and a flag, an iterator, or a
    number.  An iterator is given by the element it designates ([None]:
    end()). *)
Inductive sans (V : Type) :=
| AnsNone
| AnsPair (u : option V) (b : bool)
| AnsIter (u : option V)
| AnsNum (n : nat).
Arguments AnsNone {V}.
Arguments AnsPair {V}.
Arguments AnsIter {V}.
Arguments AnsNum {V}.

Section hist.
  Context {V : Type} {L : limit} (cf : cfg V) (comp : V -> V -> bool).
  Notation MT := (M (tcell V)).
  Notation E := (addr * V)%type.

  (** The client steps from begin() until it has made [i] steps or is at end(). *)
  Fixpoint t_step_iter (e it : addr) (i : nat) : MT addr :=
    match i with
    | 0 => ret it
    | S i => if decide (it = e) then ret it else let! it := rb_increment it in t_step_iter e it i
    end.
  Definition t_iter_at (o : tset) (i : nat) : MT addr :=
    let! b := t_begin o in t_step_iter (t_end o) b i.
  Definition read_iter (o : tset) (it : addr) : MT (option V) :=
    if decide (it = t_end o) then ret None else let! v := tread it in ret (Some v).

  (** All elements from begin() to end(), and back from end() to begin(). *)
  Fixpoint t_walk_loop (fuel : nat) (e it : addr) : MT (list V) :=
    match fuel with
    | 0 => fail FFuel
    | S fuel =>
        if decide (it = e) then ret [] else
        let! v := tread it in
        let! it := rb_increment it in
        let! vs := t_walk_loop fuel e it in
        ret (v :: vs)
    end.
  Definition t_walk (o : tset) : MT (list V) :=
    let! b := t_begin o in
    let! fuel := cell_fuel in
    t_walk_loop fuel (t_end o) b.
  Fixpoint t_rwalk_loop (fuel : nat) (b it : addr) : MT (list V) :=
    match fuel with
    | 0 => fail FFuel
    | S fuel =>
        if decide (it = b) then ret [] else
        let! it := rb_decrement it in
        let! v := tread it in
        let! vs := t_rwalk_loop fuel b it in
        ret (v :: vs)
    end.
  Definition t_rwalk (o : tset) : MT (list V) :=
    let! b := t_begin o in
    let! fuel := cell_fuel in
    t_rwalk_loop fuel b (t_end o).

  Definition t_get_arg (os : list tset) (x : hval V) : MT (option (targ V)) :=
    match x with
    | HVal v => ret (Some (TAVal v))
    | HElem j q =>
        match os !! j with
        | None => ret None
        | Some o =>
            let! it := t_iter_at o q in
            if decide (it = t_end o) then ret None else ret (Some (TARef it))
        end
    end.
  Definition with_set (os : list tset) (i : nat) (k : tset -> MT (sans V)) : MT (sans V) :=
    match os !! i with Some o => k o | None => ret AnsNone end.
  Definition with_targ (os : list tset) (x : hval V) (k : targ V -> MT (sans V)) : MT (sans V) :=
    let! a := t_get_arg os x in
    match a with Some a => k a | None => ret AnsNone end.

  (** erase() is only called for an existing element. *)
  Definition exec_sop (op : sop V) (os : list tset) : MT (sans V) :=
    match op with
    | SoInsert i x => with_set os i (fun o => with_targ os x (fun a =>
        let! r := insert_unique cf comp o a in
        let! u := read_iter o r.1 in
        ret (AnsPair u r.2)))
    | SoInsertHint i p x => with_set os i (fun o => with_targ os x (fun a =>
        let! pos := t_iter_at o p in
        let! r := insert_unique_at cf comp o pos a in
        let! u := read_iter o r in
        ret (AnsIter u)))
    | SoInsertVals i vs => with_set os i (fun o =>
        do! insert_unique_range cf comp o (map TAVal vs) in ret AnsNone)
    | SoEmplace i x => with_set os i (fun o => with_targ os x (fun a =>
        let! r := emplace_unique cf comp o a in
        let! u := read_iter o r.1 in
        ret (AnsPair u r.2)))
    | SoEmplaceHint i p x => with_set os i (fun o => with_targ os x (fun a =>
        let! pos := t_iter_at o p in
        let! r := emplace_hint_unique cf comp o pos a in
        let! u := read_iter o r in
        ret (AnsIter u)))
    | SoEraseKey i x => with_set os i (fun o => with_targ os x (fun a =>
        let! n := t_erase_key cf comp o a in ret (AnsNum n)))
    | SoErase i p => with_set os i (fun o =>
        let! pos := t_iter_at o p in
        if decide (pos = t_end o) then ret AnsNone else
        let! r := t_erase cf o pos in
        let! u := read_iter o r in
        ret (AnsIter u))
    | SoEraseRange i p n => with_set os i (fun o =>
        let! first := t_iter_at o p in
        let! last := t_iter_at o (p + n) in
        let! r := t_erase_range cf o first last in
        let! u := read_iter o r in
        ret (AnsIter u))
    | SoClear i => with_set os i (fun o => do! t_clear o in ret AnsNone)
    | SoCopy i j => with_set os i (fun o => with_set os j (fun o2 => do! t_copy cf o o2 in ret AnsNone))
    | SoMove i j => with_set os i (fun o => with_set os j (fun o2 => do! t_move_assign o o2 in ret AnsNone))
    | SoSwap i j => with_set os i (fun o => with_set os j (fun o2 => do! t_swap o o2 in ret AnsNone))
    | SoFind i x => with_set os i (fun o => with_targ os x (fun a =>
        let! r := t_find comp o a in
        let! u := read_iter o r in
        ret (AnsIter u)))
    | SoLower i x => with_set os i (fun o => with_targ os x (fun a =>
        let! r := lower_bound comp o a in
        let! u := read_iter o r in
        ret (AnsIter u)))
    | SoUpper i x => with_set os i (fun o => with_targ os x (fun a =>
        let! r := upper_bound comp o a in
        let! u := read_iter o r in
        ret (AnsIter u)))
    | SoCount i x => with_set os i (fun o => with_targ os x (fun a =>
        let! n := t_count comp o a in ret (AnsNum n)))
    end.

  (** Run a history; returns what each call reported and returned. *)
  Fixpoint exec_sops (ops : list (sop V)) (os : list tset) : MT (list (option error * sans V)) :=
    match ops with
    | [] => ret []
    | op :: ops =>
        do! put_err None in
        let! a := exec_sop op os in
        let! e := get_err in
        let! rs := exec_sops ops os in
        ret ((e, a) :: rs)
    end.

  (** Create [n] sets; destroy a row of sets. *)
  Fixpoint new_sets (n : nat) : MT (list tset) :=
    match n with
    | 0 => ret []
    | S n => let! o := tset_new (c_dflt cf) in let! os := new_sets n in ret (o :: os)
    end.
  Fixpoint destroy_sets (os : list tset) : MT unit :=
    match os with
    | [] => ret tt
    | o :: os => do! t_destroy o in destroy_sets os
    end.
  Definition set_program (k : nat) (ops : list (sop V)) : MT (list tset * list (option error * sans V)) :=
    let! os := new_sets k in
    let! rs := exec_sops ops os in
    ret (os, rs).

  (** ** What the calls mean, on a row of plain lists without repetitions *)

  Definition equivalent (x y : V) : Prop := comp x y = false /\ comp y x = false.
  Definition absent (v : V) (l : list V) : Prop := forall u, u ∈ l -> ~ equivalent u v.

  (** Inserting [v] into [l] gives [l']; [b]: the element is new; [u] is the
      element equivalent to [v] that is there afterwards. *)
  Definition put (v : V) (l : list V) (b : bool) (u : V) (l' : list V) : Prop :=
    match b with
    | true => u = v /\ l' ≡ₚ v :: l /\ absent v l
    | false => u ∈ l /\ equivalent u v /\ l' = l
    end.
  Fixpoint puts (vs : list V) (l l' : list V) : Prop :=
    match vs with
    | [] => l' = l
    | v :: vs => exists b u l1, put v l b u l1 /\ puts vs l1 l'
    end.

  (** The element of [l] that a search for [v] must find. *)
  Definition found (v : V) (l : list V) (r : option V) : Prop :=
    match r with
    | Some u => u ∈ l /\ equivalent u v
    | None => absent v l
    end.

  (** [sop_spec op ls e a ls']: a call on sets holding [ls] that reports [e]
      ([None]: success) and returns [a] leaves them holding [ls']. *)
  Definition sop_spec (op : sop V) (ls : list (list V)) (e : option error) (a : sans V) (ls' : list (list V)) : Prop :=
    match op with
    | SoInsert i x | SoEmplace i x =>
        match ls !! i, hval_of ls x with
        | Some l, Some v =>
            match e with
            | None => exists b u l', a = AnsPair (Some u) b /\ put v l b u l' /\ ls' = <[ i := l' ]> ls
            | Some _ => ls' = ls
            end
        | _, _ => e = None /\ ls' = ls
        end
    | SoInsertHint i _ x | SoEmplaceHint i _ x =>
        match ls !! i, hval_of ls x with
        | Some l, Some v =>
            match e with
            | None => exists b u l', a = AnsIter (Some u) /\ put v l b u l' /\ ls' = <[ i := l' ]> ls
            | Some _ => ls' = ls /\ a = AnsIter None
            end
        | _, _ => e = None /\ ls' = ls
        end
    | SoInsertVals i vs =>
        match ls !! i with
        | Some l =>
            match e with
            | None => exists l', puts vs l l' /\ ls' = <[ i := l' ]> ls
            | Some _ => exists n l', n < length vs /\ puts (take n vs) l l' /\ ls' = <[ i := l' ]> ls
            end
        | None => e = None /\ ls' = ls
        end
    | SoEraseKey i x =>
        e = None /\
        match ls !! i, hval_of ls x with
        | Some l, Some v =>
            (absent v l /\ a = AnsNum 0 /\ ls' = ls) \/
            (exists u l', equivalent u v /\ l ≡ₚ u :: l' /\ a = AnsNum 1 /\ ls' = <[ i := l' ]> ls)
        | _, _ => ls' = ls
        end
    | SoErase i p =>
        e = None /\
        match ls !! i with
        | Some l => ls' = <[ i := del p 1 l ]> ls /\ (p < length l -> a = AnsIter (l !! S p))
        | None => ls' = ls
        end
    | SoEraseRange i p n =>
        e = None /\
        match ls !! i with
        | Some l => ls' = <[ i := del p n l ]> ls /\ a = AnsIter (l !! (p + n))
        | None => ls' = ls
        end
    | SoClear i => e = None /\ ls' = upd i (fun _ => []) ls
    | SoCopy i j =>
        match ls !! i, ls !! j with
        | Some _, Some r =>
            if decide (i = j) then e = None /\ ls' = ls else
            ls' = <[ i := match e with None => r | Some _ => [] end ]> ls
        | _, _ => e = None /\ ls' = ls
        end
    | SoMove i j =>
        e = None /\
        match ls !! i, ls !! j with
        | Some _, Some r => ls' = if decide (i = j) then <[ i := [] ]> ls else <[ i := r ]> (<[ j := [] ]> ls)
        | _, _ => ls' = ls
        end
    | SoSwap i j =>
        e = None /\
        match ls !! i, ls !! j with
        | Some l, Some r => ls' = <[ i := r ]> (<[ j := l ]> ls)
        | _, _ => ls' = ls
        end
    | SoFind i x =>
        e = None /\ ls' = ls /\
        match ls !! i, hval_of ls x with
        | Some l, Some v => exists r, a = AnsIter r /\ found v l r
        | _, _ => True
        end
    | SoLower i x =>
        e = None /\ ls' = ls /\
        match ls !! i, hval_of ls x with
        | Some l, Some v => a = AnsIter (head (filter (fun u => comp u v = false) l))
        | _, _ => True
        end
    | SoUpper i x =>
        e = None /\ ls' = ls /\
        match ls !! i, hval_of ls x with
        | Some l, Some v => a = AnsIter (head (filter (fun u => comp v u = true) l))
        | _, _ => True
        end
    | SoCount i x =>
        e = None /\ ls' = ls /\
        match ls !! i, hval_of ls x with
        | Some l, Some v => (a = AnsNum 1 /\ exists u, u ∈ l /\ equivalent u v) \/ (a = AnsNum 0 /\ absent v l)
        | _, _ => True
        end
    end.

  Fixpoint sops_spec (ops : list (sop V)) (ls : list (list V)) (rs : list (option error * sans V)) (ls' : list (list V)) : Prop :=
    match ops, rs with
    | [], [] => ls' = ls
    | op :: ops, (e, a) :: rs => exists ls1, sop_spec op ls e a ls1 /\ sops_spec ops ls1 rs ls'
    | _, _ => False
    end.

  (** What a user can observe of a set. *)
  Definition set_shows (w : world (tcell V)) (o : tset) (l : list V) : Prop :=
    ascending comp l /\
    t_size o w = Done (length l) w /\
    t_empty o w = Done (bool_decide (l = [])) w /\
    t_walk o w = Done l w /\
    t_rwalk o w = Done (reverse l) w /\
    (forall v, exists r, (let! it := t_find comp o (TAVal v) in read_iter o it) w = Done r w /\ found v l r).

  (** The elements (nodes with their values) that a call may destroy; all
      others must stay where they are. *)
  Definition sop_kills (op : sop V) (xss : list (list E)) (x : E) : Prop :=
    match op with
    | SoEraseKey i k => exists xs v, xss !! i = Some xs /\ x ∈ xs /\ hval_of ((fun xs => xs.*2) <$> xss) k = Some v /\ equivalent x.2 v
    | SoErase i p => xss !! i ≫= (.!! p) = Some x
    | SoEraseRange i p n => exists xs q, xss !! i = Some xs /\ p <= q < p + n /\ xs !! q = Some x
    | SoClear i => exists xs, xss !! i = Some xs /\ x ∈ xs
    | SoCopy i j => i <> j /\ exists xs, xss !! i = Some xs /\ x ∈ xs
    | SoMove i _ => exists xs, xss !! i = Some xs /\ x ∈ xs
    | _ => False
    end.

  (** The heap fragment [hv] is exactly the sets [ls], each given by its
      header and its elements. *)
  Fixpoint sets_own (al : alloc_id) (ls : list (addr * list E)) (hv : gmap addr (tcell V)) : Prop :=
    match ls with
    | [] => hv = ∅
    | (hdr, xs) :: R => exists h1 h2, hv = h1 ∪ h2 /\ h1 ##ₘ h2 /\ set_own comp al hdr xs h1 /\ sets_own al R h2
    end.
End hist.
