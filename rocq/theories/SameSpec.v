(** * Vocabulary: the outcome of a call in terms of the failures of the environment *)
From Verif Require Export ConcSpec.

(** Adding an element asks the environment for storage, and then once or twice
    for the construction, depending on the kind of the element. *)
Definition answers_each {V} (cf : cfg V) : nat :=
  match c_kind cf with Nothrow => 1 | Direct => 2 | TwoPhase => 3 end.
Definition succeeds_before (o : list event) (n : nat) : Prop := forall g c, g < n -> o !! g <> Some (EvFail c).
(** Answer number [f] is the first failure. *)
Definition first_failure (o : list event) (f c : nat) : Prop := o !! f = Some (EvFail c) /\ succeeds_before o f.

(** [outcome cf n o k e]: with the answers [o], a call that wants to add [n]
    elements adds [k] and reports [e].  All of them if no answer is a failure.
    Otherwise those that were complete before the first failure, and the error
    says whether storage or a construction was refused. *)
Definition outcome {V} (cf : cfg V) (n : nat) (o : list event) (k : nat) (e : option error) : Prop :=
  (succeeds_before o (n * answers_each cf) -> k = n /\ e = None) /\
  (forall f c, first_failure o f c -> f < n * answers_each cf ->
     k = f / answers_each cf /\ e = Some (if decide (f mod answers_each cf = 0) then EBadAlloc else EElem c)).
