(** * Programs as sequences of single memory accesses, and threads

    The other models run an operation in one go.  Here a program is a tree of
    single accesses, and threads take turns between any two of them.  [exec]
    runs a tree in one go on the machine of Base.v; ConcVec.v, ConcList.v and
    ConcSet.v show that the functions of the models are such trees, so this
    file adds nothing to the description of the code.  There are no locks and
    no other means of synchronisation anywhere in nestl. *)
From Verif Require Export BaseLemmas.

Inductive prog (C A : Type) :=
| PRet (a : A)
| PStop (f : fault)                              (* undefined behaviour *)
| PLoad (a : addr) (f : fault) (k : C -> prog C A) (* a read; [f]: what it is if nothing is there *)
| PStore (a : addr) (c : C) (k : prog C A)       (* a write *)
| PNew (c : C) (k : option addr -> prog C A)     (* operator new *)
| PFree (a : addr) (k : prog C A)                (* operator delete; a local variable goes out of scope *)
| PLocal (c : C) (k : addr -> prog C A)          (* a new local variable *)
| PEvent (k : event -> prog C A)                 (* an element operation that may fail *)
| PGetErr (k : option error -> prog C A)         (* the error object of the thread *)
| PPutErr (e : option error) (k : prog C A)
| PTickAlloc (k : prog C A)                      (* the counters of C78 *)
| PTickCtor (k : prog C A)
| PSize (k : nat -> prog C A).                   (* fuel: the number of cells *)
Arguments PRet {C A}.
Arguments PStop {C A}.
Arguments PLoad {C A}.
Arguments PStore {C A}.
Arguments PNew {C A}.
Arguments PFree {C A}.
Arguments PLocal {C A}.
Arguments PEvent {C A}.
Arguments PGetErr {C A}.
Arguments PPutErr {C A}.
Arguments PTickAlloc {C A}.
Arguments PTickCtor {C A}.
Arguments PSize {C A}.

(** The tree run in one go. *)
Fixpoint exec {C A} (p : prog C A) : M C A :=
  match p with
  | PRet a => ret a
  | PStop f => fail f
  | PLoad a f k => fun w => match w_heap w !! a with Some c => exec (k c) w | None => Fault f end
  | PStore a c k => do! store a c in exec k
  | PNew c k => let! r := alloc_cell c in exec (k r)
  | PFree a k => do! free_cell a in exec k
  | PLocal c k => let! a := new_local c in exec (k a)
  | PEvent k => let! e := next_event in exec (k e)
  | PGetErr k => let! e := get_err in exec (k e)
  | PPutErr e k => do! put_err e in exec k
  | PTickAlloc k => do! tick_alloc in exec k
  | PTickCtor k => do! tick_ctor in exec k
  | PSize k => fun w => exec (k (size (w_heap w))) w
  end.

(** Programs that only read: no writes, no calls of the allocator, no element
    operations. *)
Fixpoint only_reads {C A} (p : prog C A) : Prop :=
  match p with
  | PRet _ | PStop _ => True
  | PLoad _ _ k => forall c, only_reads (k c)
  | PGetErr k => forall e, only_reads (k e)
  | PSize k => forall n, only_reads (k n)
  | _ => False
  end.

(** A thread: what it has still to do; the addresses of all its objects; its
    local variables; what the environment will answer; its error object.

    Simplifications.  Memory is sequentially consistent.  Every thread has a
    stack of its own, and an address on it means the same to nobody else.
    Where the models read the number of existing cells as a bound for their
    loops (the code has no such bound), the thread gets the number of its own
    cells. *)
Record cthr (C A : Type) := CThr {
  ct_prog : prog C A;
  ct_own : gset addr;
  ct_stack : gmap addr C;
  ct_orc : list event;
  ct_err : option error;
  ct_allocs : nat;
  ct_ctors : nat
}.
Arguments CThr {C A}.
Arguments ct_prog {C A}.
Arguments ct_own {C A}.
Arguments ct_stack {C A}.
Arguments ct_orc {C A}.
Arguments ct_err {C A}.
Arguments ct_allocs {C A}.
Arguments ct_ctors {C A}.

Section conc.
  Context {C A : Type}.
  Notation mem := (gmap addr C).

  (** What is at [a], as the thread sees it. *)
  Definition look (H s : mem) (a : addr) : option C :=
    match s !! a with Some c => Some c | None => H !! a end.
  (** operator new hands out an address that is free for everybody. *)
  Definition cpick (H s : mem) (hint : addr) : addr :=
    match look H s hint with None => hint | Some _ => fresh (dom H ∪ dom s) end.
  Definition next (o : list event) : event * list event :=
    match o with [] => (EvOk 1, []) | e :: o => (e, o) end.

  (** One step of a thread on the memory [H] it shares with the others. *)
  Definition cstep (H : mem) (t : cthr C A) : mem * cthr C A + fault :=
    let 'CThr p own s o e n1 n2 := t in
    match p with
    | PRet _ => inl (H, t)
    | PStop f => inr f
    | PLoad a f k =>
        match look H s a with
        | Some c => inl (H, CThr (k c) own s o e n1 n2)
        | None => inr f
        end
    | PStore a c k =>
        match s !! a with
        | Some _ => inl (H, CThr k own (<[a := c]> s) o e n1 n2)
        | None =>
            match H !! a with
            | Some _ => inl (<[a := c]> H, CThr k own s o e n1 n2)
            | None => inr FFreed
            end
        end
    | PFree a k =>
        match s !! a with
        | Some _ => inl (H, CThr k (own ∖ {[a]}) (delete a s) o e n1 n2)
        | None =>
            match H !! a with
            | Some _ => inl (delete a H, CThr k (own ∖ {[a]}) s o e n1 n2)
            | None => inr FFree
            end
        end
    | PNew c k =>
        match next o with
        | (EvFail _, o) => inl (H, CThr (k None) own s o (Some EBadAlloc) (S n1) n2)
        | (EvOk hint, o) =>
            let a := cpick H s hint in
            inl (<[a := c]> H, CThr (k (Some a)) ({[a]} ∪ own) s o e (S n1) n2)
        end
    | PLocal c k =>
        let a := fresh own in
        inl (H, CThr (k a) ({[a]} ∪ own) (<[a := c]> s) o e n1 n2)
    | PEvent k => inl (H, CThr (k (next o).1) own s (next o).2 e n1 n2)
    | PGetErr k => inl (H, CThr (k e) own s o e n1 n2)
    | PPutErr e k => inl (H, CThr k own s o e n1 n2)
    | PTickAlloc k => inl (H, CThr k own s o e (S n1) n2)
    | PTickCtor k => inl (H, CThr k own s o e n1 (S n2))
    | PSize k => inl (H, CThr (k (size own)) own s o e n1 n2)
    end.

  (** The memory and the threads; thread [i] makes a step. *)
  Record csys := CSys { cs_mem : mem; cs_thr : list (cthr C A) }.
  Definition csstep (i : nat) (s : csys) : csys + fault :=
    match cs_thr s !! i with
    | None => inl s
    | Some t =>
        match cstep (cs_mem s) t with
        | inl (H, t') => inl (CSys H (<[i := t']> (cs_thr s)))
        | inr f => inr f
        end
    end.
  (** A schedule says which thread makes the next step. *)
  Fixpoint crun (sched : list nat) (s : csys) : csys + fault :=
    match sched with
    | [] => inl s
    | i :: sched => match csstep i s with inl s' => crun sched s' | inr f => inr f end
    end.
End conc.
Arguments csys : clear implicits.
