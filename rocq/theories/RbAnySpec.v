(** * A tree whose comparison function may be anything: what is still expected

    A comparison function that is not a strict weak order is a mistake of the
    caller and the resulting order is not specified.  What is stated here is
    that the damage stays inside the meaning of the container: the tree remains
    a red-black tree, nothing is lost, freed twice or read after its end. *)
From Verif Require Export RbSpec RbMultiModel.
From Verif Require Import RbHistSpec.

Section any.
  Context {V : Type}.
  Notation W := (world (tcell V)).
  Notation H := (gmap addr (tcell V)).

  (** The heap consists of [hf] and of exactly the tree [o]: a red-black tree
      whose nodes hold, from left to right, the values of [xs].  Nothing is
      said about the order of the values. *)
  Definition tree_is (o : tset) (xs : list (addr * V)) (hf : H) (w : W) : Prop :=
    exists hv, (exists t, elems t = xs /\ tree_own (t_alloc o) (t_hdr o) t hv) /\ heap_is w hv hf.

  (** [ys] is [xs] with one more element somewhere. *)
  Definition one_more (p : addr * V) (xs ys : list (addr * V)) : Prop :=
    exists i, i <= length xs /\ ys = take i xs ++ p :: drop i xs.

  (** A new element was put somewhere, in a node that did not exist before: one
      allocation, one constructor call, no error. *)
  Definition grown (o : tset) (xs : list (addr * V)) (hf : H) (v : V) (w : W) (a : addr) (w' : W) : Prop :=
    w_err w' = None /\ w_heap w !! a = None /\ w_allocs w' = S (w_allocs w) /\ w_ctors w' = S (w_ctors w) /\
    exists ys, one_more (a, v) xs ys /\ tree_is o ys hf w'.

  (** An error of the allocator or of the element, and nothing changed. *)
  Definition refused (cf : cfg V) (w w' : W) : Prop :=
    exists e, w_err w' = Some e /\ tnode_error cf e /\ w_heap w' = w_heap w.
End any.

(** ** Programs over one tree *)

(** An argument: a temporary, or the element number [i] of the tree itself. *)
Inductive aarg (V : Type) := ArgVal (v : V) | ArgElem (i : nat).
Arguments ArgVal {V}.
Arguments ArgElem {V}.

(** A call.  One whose argument is an element that does not exist is left out,
    and so is the erasure of such an element. *)
Inductive aop (V : Type) :=
| AoInsert (x : aarg V)
| AoEmplace (x : aarg V)
| AoInsertEqual (x : aarg V)
| AoEmplaceEqual (x : aarg V)
| AoInsertEqualLower (x : aarg V)
| AoEraseKey (x : aarg V)
| AoErase (i : nat)
| AoEraseRange (i n : nat)
| AoFind (x : aarg V)
| AoCount (x : aarg V)
| AoBounds (x : aarg V)
| AoWalk
| AoClear.
Arguments AoInsert {V}.
Arguments AoEmplace {V}.
Arguments AoInsertEqual {V}.
Arguments AoEmplaceEqual {V}.
Arguments AoInsertEqualLower {V}.
Arguments AoEraseKey {V}.
Arguments AoErase {V}.
Arguments AoEraseRange {V}.
Arguments AoFind {V}.
Arguments AoCount {V}.
Arguments AoBounds {V}.
Arguments AoWalk {V}.
Arguments AoClear {V}.

Section prog.
  Context {V : Type} (cf : cfg V) (comp : V -> V -> bool).
  Notation MT := (M (tcell V)).

  Definition with_aarg (o : tset) (x : aarg V) (k : targ V -> MT unit) : MT unit :=
    match x with
    | ArgVal v => k (TAVal v)
    | ArgElem i =>
        let! it := t_iter_at o i in
        if decide (it = t_end o) then ret tt else k (TARef it)
    end.
  (** Iterators that a lookup returned are used: the element is read. *)
  Definition use_iter (o : tset) (it : addr) : MT unit :=
    let! _ := read_iter o it in ret tt.

  Definition exec_aop (op : aop V) (o : tset) : MT unit :=
    match op with
    | AoInsert x => with_aarg o x (fun x => let! r := insert_unique cf comp o x in use_iter o r.1)
    | AoEmplace x => with_aarg o x (fun x => let! r := emplace_unique cf comp o x in use_iter o r.1)
    | AoInsertEqual x => with_aarg o x (fun x => let! r := insert_equal cf comp o x in use_iter o r)
    | AoEmplaceEqual x => with_aarg o x (fun x => let! r := emplace_equal cf comp o x in use_iter o r)
    | AoInsertEqualLower x => with_aarg o x (fun x => let! r := insert_equal_lower cf comp o x in use_iter o r)
    | AoEraseKey x => with_aarg o x (fun x => let! _ := t_erase_key cf comp o x in ret tt)
    | AoErase i =>
        let! it := t_iter_at o i in
        if decide (it = t_end o) then ret tt else let! r := t_erase cf o it in use_iter o r
    | AoEraseRange i n =>
        let! it := t_iter_at o i in
        let! it' := t_iter_at o (i + n) in
        let! r := t_erase_range cf o it it' in use_iter o r
    | AoFind x => with_aarg o x (fun x => let! r := t_find comp o x in use_iter o r)
    | AoCount x => with_aarg o x (fun x => let! _ := t_count comp o x in ret tt)
    | AoBounds x => with_aarg o x (fun x =>
        let! r := lower_bound comp o x in
        let! r' := upper_bound comp o x in
        let! r'' := equal_range comp o x in
        do! use_iter o r in do! use_iter o r' in do! use_iter o r''.1 in use_iter o r''.2)
    | AoWalk => let! _ := t_walk (V:=V) o in let! _ := t_rwalk (V:=V) o in ret tt
    | AoClear => t_clear o
    end.
  (** Before each call the error object is fresh; returns what was reported. *)
  Fixpoint exec_aops (ops : list (aop V)) (o : tset) : MT (list (option error)) :=
    match ops with
    | [] => ret []
    | op :: ops =>
        do! put_err None in
        do! exec_aop op o in
        let! e := get_err in
        let! rs := exec_aops ops o in
        ret (e :: rs)
    end.
  Definition any_program (ops : list (aop V)) : MT (list (option error)) :=
    let! o := tset_new (c_dflt cf) in
    let! rs := exec_aops ops o in
    do! t_destroy o in
    ret rs.
End prog.
