(** * The requests of creating a tree node *)
From Verif Require Import Asks HonestSet.

Section asks.
  Context {V : Type} (cf : cfg V).

  Lemma asks_create_node o x : asks 1 (tcreate_node cf o x).
  Proof.
    unfold tcreate_node. apply asks_alloc; [sh|]. intros r.
    apply builds_silent_bind; [sh|]. intros a.
    apply builds_bind_silent; [apply builds_construct; sh|sh].
  Qed.
End asks.
