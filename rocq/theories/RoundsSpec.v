(** * How often the loops of the tree code go round: vocabulary

    Every loop up or down a tree in RbModel.v (searches, ++ and --, the
    rebalancing after an insertion or a removal, the smallest and the largest
    element, and the recursions of copy and clear, of which [fuel] bounds the
    depth) is given a number of rounds when it starts, [rounds c], where [c] is
    the number of cells in the heap: headers and nodes of all sets.  A loop
    that needs more stops the program with [FFuel]. *)
From Verif Require Export RbHistSpec RbMultiHistSpec.

(** The tightest limit considered. *)
Definition logarithmic : limit := Limit (fun c => S (2 * Nat.log2 c)) (fun c => Nat.lt_succ_diag_r _).

Section life.
  Context {V : Type} {L : limit} (cf : cfg V) (comp : V -> V -> bool).
  Notation MT := (M (tcell V)).

  (** Visit all elements of all sets, forwards and backwards. *)
  Fixpoint walk_all (os : list tset) : MT (list (list V * list V)) :=
    match os with
    | [] => ret []
    | o :: os =>
        let! l := t_walk o in
        let! r := t_rwalk o in
        let! ls := walk_all os in
        ret ((l, r) :: ls)
    end.
  (** Create [k] sets, run a history on them, visit all elements, destroy the
      sets; the same for trees that keep equal values. *)
  Definition set_life (k : nat) (ops : list (sop V)) : MT (list (option error * sans V) * list (list V * list V)) :=
    let! r := set_program cf comp k ops in
    let! ls := walk_all r.1 in
    do! destroy_sets r.1 in
    ret (r.2, ls).
  Definition multi_life (k : nat) (ops : list (mop V)) : MT (list (option error * mans V) * list (list V * list V)) :=
    let! r := multi_program cf comp k ops in
    let! ls := walk_all r.1 in
    do! destroy_sets r.1 in
    ret (r.2, ls).
End life.
