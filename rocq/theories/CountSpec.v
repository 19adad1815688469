(** * How many comparisons a call needs

    Comparators are functions without state, so the machine does not count
    their calls.  Instead: a call is settled by n comparisons if there are n
    pairs of values such that every comparator that answers these n questions
    in the same way gives the same outcome (result, memory, error, everything).
    A program that looks at its comparator only by calling it, and calls it at
    most n times, is settled by n comparisons; one that needs the answers to
    more questions is not.  Asking the same question again is not noticed: the
    answer is known. *)
From Verif Require Export BaseLemmas.

Definition settled {V C A} (m : (V -> V -> bool) -> M C A) (comp : V -> V -> bool) (w : world C) (n : nat) : Prop :=
  exists qs : list (V * V), length qs <= n /\
    forall comp', Forall (fun q => comp' q.1 q.2 = comp q.1 q.2) qs -> m comp' w = m comp w.
