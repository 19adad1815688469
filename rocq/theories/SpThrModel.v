(** * Model of shared_ptr and weak_ptr handles used by several threads

    nestl/implementation/shared_ptr.hpp.  The counters of a control block are
    plain [long]s (78-79) and there is no lock anywhere, so the operations of
    different threads interleave between any two accesses to a counter.  Every
    step of this model is at most one access to one control block.

    Simplifications: every handle belongs to one thread; the objects have no
    handle members; memory is sequentially consistent (by the C++ standard the
    interleavings that go wrong below are data races, so anything may happen);
    the assertions read a counter again and are left out.  Moving and swapping
    handles does not touch control blocks and is left out. *)
From Verif Require Export SpModel.

(** What a thread does. *)
Inductive tstmt :=
| TCopy (i : nat)  (* auto x = h_i; *)
| TWeak (i : nat)  (* weak_ptr<T> x(h_i); with h_i a shared_ptr *)
| TLock (i : nat)  (* if (!h_i.expired()) auto x = h_i.lock(); with h_i a weak_ptr *)
| TDrop (i : nat)  (* h_i goes out of scope *)
| TUse (i : nat).  (* *h_i; with h_i a shared_ptr *)

(** Where a thread is inside a statement: [n] is the value of the counter it
    has loaded and not yet stored. *)
Inductive pc :=
| Idle
| AddLoaded (c : addr) (n : Z)   (* add_ref, 44 *)
| RelLoaded (c : addr) (n : Z)   (* release, 50 *)
| RelStored (c : addr)           (* release, before 51 *)
| RelDestroyed (c : addr)        (* release, before 54 *)
| WAddLoaded (c : addr) (n : Z)  (* weak_add_ref, 64 *)
| WRelLoaded (c : addr) (n : Z)  (* weak_release, 70 *)
| WRelStored (c : addr)          (* weak_release, before the first test in 71 *)
| WRelTested (c : addr)          (* weak_release, before the second test in 71 *)
| Locking (c : addr).            (* lock(), 333-336, after the test of expired() *)

(** A thread: its handles, where it is, what it has still to do. *)
Record thr := Thr {
  th_handles : list (hkind * addr);
  th_pc : pc;
  th_prog : list tstmt
}.

Section model.
  Context {V : Type}.
  Notation mem := (gmap addr (cblock V)).

  (** A step ends in a new memory and a new state of the thread, or in
      undefined behaviour. *)
  Definition tres := (mem * thr + fault)%type.

  (** An access to the control block at [c]. *)
  Definition with_block (m : mem) (c : addr) (k : cblock V -> tres) : tres :=
    match m !! c with Some b => k b | None => inr FFreed end.

  Definition set_use (b : cblock V) (n : Z) : cblock V := CB (cb_alloc b) n (cb_weak b) (cb_val b).
  Definition set_weak (b : cblock V) (n : Z) : cblock V := CB (cb_alloc b) (cb_use b) n (cb_val b).
  Definition end_value (b : cblock V) : cblock V := CB (cb_alloc b) (cb_use b) (cb_weak b) None.

  (** shared_ptr.hpp:112-118, destroy_self *)
  Definition free_block (m : mem) (c : addr) (b : cblock V) (t : thr) : tres :=
    match cb_val b with Some _ => inr FLive | None => inl (delete c m, t) end.

  (** The first step of a statement; one that does not make sense (no such
      handle, or of the other kind) does nothing. *)
  Definition tstart (m : mem) (hs : list (hkind * addr)) (s : tstmt) (p : list tstmt) : tres :=
    let skip := inl (m, Thr hs Idle p) in
    match s with
    | TCopy i =>
        match hs !! i with
        (* shared_ptr.hpp:362-371, add_ref (41-45): load *)
        | Some (KShared, c) => with_block m c (fun b => inl (m, Thr hs (AddLoaded c (cb_use b)) p))
        (* shared_ptr.hpp:244-252, weak_add_ref (61-65): load *)
        | Some (KWeak, c) => with_block m c (fun b => inl (m, Thr hs (WAddLoaded c (cb_weak b)) p))
        | None => skip
        end
    | TWeak i =>
        (* shared_ptr.hpp:234-242, weak_add_ref (61-65): load *)
        match hs !! i with
        | Some (KShared, c) => with_block m c (fun b => inl (m, Thr hs (WAddLoaded c (cb_weak b)) p))
        | _ => skip
        end
    | TLock i =>
        (* shared_ptr.hpp:318-331: expired() reads the use count *)
        match hs !! i with
        | Some (KWeak, c) => with_block m c (fun b =>
            if decide (cb_use b = 0)%Z then skip else inl (m, Thr hs (Locking c) p))
        | _ => skip
        end
    | TDrop i =>
        match hs !! i with
        (* shared_ptr.hpp:393-400, release (47-59): load *)
        | Some (KShared, c) => with_block m c (fun b => inl (m, Thr (delete i hs) (RelLoaded c (cb_use b)) p))
        (* shared_ptr.hpp:266-272, weak_release (67-75): load *)
        | Some (KWeak, c) => with_block m c (fun b => inl (m, Thr (delete i hs) (WRelLoaded c (cb_weak b)) p))
        | None => skip
        end
    | TUse i =>
        (* shared_ptr.hpp:477-489 *)
        match hs !! i with
        | Some (KShared, c) => with_block m c (fun b =>
            match cb_val b with Some _ => skip | None => inr FRaw end)
        | _ => skip
        end
    end.

  (** One step of a thread. *)
  Definition tstep (m : mem) (t : thr) : tres :=
    let 'Thr hs q p := t in
    match q with
    | Idle => match p with [] => inl (m, t) | s :: p => tstart m hs s p end
    (* shared_ptr.hpp:44: the store; the new handle exists *)
    | AddLoaded c n => with_block m c (fun b => inl (<[c := set_use b (n + 1)]> m, Thr (hs ++ [(KShared, c)]) Idle p))
    (* shared_ptr.hpp:64 *)
    | WAddLoaded c n => with_block m c (fun b => inl (<[c := set_weak b (n + 1)]> m, Thr (hs ++ [(KWeak, c)]) Idle p))
    (* shared_ptr.hpp:333-336 and 41-45: load *)
    | Locking c => with_block m c (fun b => inl (m, Thr hs (AddLoaded c (cb_use b)) p))
    (* shared_ptr.hpp:50 *)
    | RelLoaded c n => with_block m c (fun b => inl (<[c := set_use b (n - 1)]> m, Thr hs (RelStored c) p))
    (* shared_ptr.hpp:51-53: m_use_count is read again; destroy_value, 106-110 *)
    | RelStored c => with_block m c (fun b =>
        if decide (cb_use b = 0)%Z then
          match cb_val b with
          | None => inr FRaw
          | Some _ => inl (<[c := end_value b]> m, Thr hs (RelDestroyed c) p)
          end
        else inl (m, Thr hs Idle p))
    (* shared_ptr.hpp:54-57 *)
    | RelDestroyed c => with_block m c (fun b =>
        if decide (cb_weak b = 0)%Z then free_block m c b (Thr hs Idle p) else inl (m, Thr hs Idle p))
    (* shared_ptr.hpp:70 *)
    | WRelLoaded c n => with_block m c (fun b => inl (<[c := set_weak b (n - 1)]> m, Thr hs (WRelStored c) p))
    (* shared_ptr.hpp:71: m_weak_use_count is read again *)
    | WRelStored c => with_block m c (fun b =>
        if decide (cb_weak b = 0)%Z then inl (m, Thr hs (WRelTested c) p) else inl (m, Thr hs Idle p))
    (* shared_ptr.hpp:71-74 *)
    | WRelTested c => with_block m c (fun b =>
        if decide (cb_use b = 0)%Z then free_block m c b (Thr hs Idle p) else inl (m, Thr hs Idle p))
    end.

  (** The whole program: the memory and the threads. *)
  Record sys := Sys { sy_mem : mem; sy_thr : list thr }.
  (** Thread [i] makes a step. *)
  Definition sstep (i : nat) (s : sys) : sys + fault :=
    match sy_thr s !! i with
    | None => inl s
    | Some t =>
        match tstep (sy_mem s) t with
        | inl (m, t') => inl (Sys m (<[i := t']> (sy_thr s)))
        | inr f => inr f
        end
    end.
  (** A schedule says which thread makes the next step. *)
  Fixpoint run (sched : list nat) (s : sys) : sys + fault :=
    match sched with
    | [] => inl s
    | i :: sched => match sstep i s with inl s' => run sched s' | inr f => inr f end
    end.
End model.
Arguments sys : clear implicits.
