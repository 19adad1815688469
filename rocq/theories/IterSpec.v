(** * What it means that iterators run over a sequence *)
From Verif Require Export IterModel.

(** In the memory [h] the call returns [x] and changes nothing. *)
Definition returns {C A} (h : gmap addr C) (m : M C A) (x : A) : Prop :=
  forall w, w_heap w = h -> m w = Done x w.

(** [pos 0], ..., [pos (length vs)] are the iterators of a sequence with the
    values [vs]; [pos (length vs)] is the end. *)
Record runs_over {C V I} (it : iterator C V I) (h : gmap addr C) (pos : nat -> I) (vs : list V) : Prop := RunsOver {
  over_ne : forall i j, i <= length vs -> j <= length vs -> returns h (i_ne it (pos i) (pos j)) (bool_decide (i <> j));
  over_get : forall i x, vs !! i = Some x -> returns h (i_get it (pos i)) x;
  over_inc : forall i, i < length vs -> returns h (i_inc it (pos i)) (pos (S i));
  over_dec : forall i, i < length vs -> returns h (i_dec it (pos (S i))) (pos i);
  over_dist : forall d i j, i_dist it = Some d -> i <= j -> j <= length vs -> returns h (d (pos i) (pos j)) (j - i)
}.

(** The call returns without undefined behaviour, the memory of the range is
    unchanged, and the result and the world of the container satisfy [Q]. *)
Definition runs2 {C1 C2 A} (m : M2 C1 C2 A) (w : world C1) (h : gmap addr C2) (Q : A -> world C1 -> Prop) : Prop :=
  exists a w', m w h = Done2 a w' h /\ Q a w'.
