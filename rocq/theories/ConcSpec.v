(** * Vocabulary for threads that use different objects *)
From Verif Require Export ConcModel.

(** What a thread is given: a program, the objects it uses, and the answers of
    the environment. *)
Record job (C A : Type) := Job {
  j_prog : prog C A;
  j_mem : gmap addr C;
  j_orc : list event
}.
Arguments Job {C A}.
Arguments j_prog {C A}.
Arguments j_mem {C A}.
Arguments j_orc {C A}.

(** The same calls fail; only the addresses that are handed out may differ. *)
Definition same_failures (o o' : list event) : Prop := forall k c,
  o !! k = Some (EvFail c) <-> o' !! k = Some (EvFail c).

Section spec.
  Context {C A : Type}.
  Notation job := (job C A).

  (** The job done by one thread alone, with nothing else in memory. *)
  Definition alone (j : job) (o : list event) : out C A := exec (j_prog j) (World (j_mem j) o None 0 0).
  (** Alone it ends without undefined behaviour, whatever addresses it gets. *)
  Definition job_ok (j : job) : Prop := forall o, same_failures o (j_orc j) -> exists a w, alone j o = Done a w.

  (** Two jobs use different objects, or both only read. *)
  Definition compatible (j k : job) : Prop :=
    j_mem j ##ₘ j_mem k \/ (only_reads (j_prog j) /\ only_reads (j_prog k)).

  (** The memory consists of the objects of the jobs and of others, [f]. *)
  Definition consists (H f : gmap addr C) (parts : list (gmap addr C)) : Prop :=
    f ⊆ H /\ (forall g, g ∈ parts -> g ⊆ H /\ f ##ₘ g) /\
    forall a, is_Some (H !! a) -> is_Some (f !! a) \/ exists g, g ∈ parts /\ is_Some (g !! a).

  Definition start (H : gmap addr C) (js : list job) : csys C A :=
    CSys H ((fun j => CThr (j_prog j) (dom (j_mem j)) ∅ (j_orc j) None 0 0) <$> js).

  Definition finished (t : cthr C A) (a : A) : Prop := ct_prog t = PRet a.
End spec.

(** The program [p] is the function [m] of a model, cut into single steps. *)
Definition presents {C A} (p : prog C A) (m : M C A) : Prop := forall w, exec p w = m w.
Definition can_step {C A} (m : M C A) : Prop := exists p, presents p m.
(** [m] can be cut into single steps all of which only read. *)
Definition reading {C A} (m : M C A) : Prop := exists p, presents p m /\ only_reads p.

(** Every thread gets infinitely many turns. *)
Definition fair (n : nat) (sched : nat -> nat) : Prop := forall i m, i < n -> exists k, m <= k /\ sched k = i.
