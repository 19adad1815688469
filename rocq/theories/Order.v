(** * Orders given by a comparator *)
From Verif Require Export Base.

Section order.
  Context {V : Type} (comp : V -> V -> bool).

  (** A strict weak ordering: what the C++ standard demands of a comparator. *)
  Definition swo : Prop :=
    (forall x, comp x x = false) /\
    (forall x y z, comp x y = true -> comp y z = true -> comp x z = true) /\
    (forall x y z, comp x y = true -> comp x z = true \/ comp z y = true).

  (** No element is smaller than one in front of it. *)
  Definition lsorted (vs : list V) : Prop :=
    forall i j x y, i < j -> vs !! i = Some x -> vs !! j = Some y -> comp y x = false.

  (** Neither is smaller. *)
  Definition same_rank (x y : V) : bool := negb (comp x y) && negb (comp y x).
End order.
