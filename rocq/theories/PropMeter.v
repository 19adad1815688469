(** * Property C83: iterating over a set takes linear time

    A single ++ or -- may have to go up or down the whole height of the tree.
    [forward_m m n it] (MeterSpec.v) makes [m] times ++it; the loops of all of
    them together may go round [n] times, the result says how many rounds are
    left, and the program stops with a fault if [n] is too small.  [tpos hdr xs
    i] is the iterator to element number [i], end() if there is none. *)
From Verif Require Import Meter RbMulti PropSet PropMulti.

(** The metered ++ and -- are the ++ and -- of RbModel.v; and how many rounds
    they take does not depend on how many they may take. *)
Theorem C83_meter V (L : limit) x (w : world (tcell V)) :
  (rb_increment x w = (let! r := increment_m (rounds (size (w_heap w))) x in ret r.1) w) /\
  (rb_decrement x w = (let! r := decrement_m (rounds (size (w_heap w))) x in ret r.1) w) /\
  (forall n y n' w' k, increment_m n x w = Done (y, n') w' -> n' <= n /\ increment_m (n + k) x w = Done (y, n' + k) w') /\
  (forall n y n' w' k, decrement_m n x w = Done (y, n') w' -> n' <= n /\ decrement_m (n + k) x w = Done (y, n' + k) w') /\
  (forall m n y n' w' k, forward_m m n x w = Done (y, n') w' -> n' <= n /\ forward_m m (n + k) x w = Done (y, n' + k) w') /\
  (forall m n y n' w' k, backward_m m n x w = Done (y, n') w' -> n' <= n /\ backward_m m (n + k) x w = Done (y, n' + k) w').
Proof.
  split_and!.
  - apply increment_same.
  - apply decrement_same.
  - intros n y n' w' k. apply (increment_metered x).
  - intros n y n' w' k. apply (decrement_metered x).
  - intros m n y n' w' k. apply (forward_metered m x).
  - intros m n y n' w' k. apply (backward_metered m x).
Qed.
Print Assumptions C83_meter.

Lemma runs_done {C A} (m : M C (A * nat)) w a : runs m w (fun r w' => r.1 = a /\ w' = w) -> exists n', m w = Done (a, n') w.
Proof. intros ([b n'] & w' & Hr & Hb & ->). simpl in Hb. subst b. by exists n'. Qed.

(** From begin() to end(), and back: two rounds per element. *)
Theorem C83_all V (comp : V -> V -> bool) o xs hf w :
  set_is comp o xs hf w ->
  (exists n', (let! b := t_begin o in forward_m (length xs) (2 * length xs) b) w = Done (t_end o, n') w) /\
  (exists n', backward_m (length xs) (2 * length xs) (t_end o) w = Done (tpos (t_hdr o) xs 0, n') w).
Proof.
  intros [t Hs]%set_is_sin. split.
  - apply runs_done. rbind. eapply begin_spec; [exact Hs|]. by eapply forward_all.
  - apply runs_done. by eapply backward_all.
Qed.
Print Assumptions C83_all.

(** From any element to any other one: two rounds per step, and a number of
    rounds that grows with the logarithm of the size. *)
Theorem C83_some V (comp : V -> V -> bool) o xs hf w i j :
  set_is comp o xs hf w -> i <= j <= length xs ->
  let n := 2 * (j - i) + 4 * Nat.log2 (S (length xs)) in
  (exists n', forward_m (j - i) n (tpos (t_hdr o) xs i) w = Done (tpos (t_hdr o) xs j, n') w) /\
  (exists n', backward_m (j - i) n (tpos (t_hdr o) xs j) w = Done (tpos (t_hdr o) xs i, n') w).
Proof.
  intros [t Hs]%set_is_sin Hij n. split; apply runs_done.
  - eapply forward_some; [exact Hs|lia|done|]. intros n'. split; [|done]. by replace (i + (j - i)) with j by lia.
  - eapply backward_some; [exact Hs|lia|lia|done|]. intros n'. split; [|done]. by replace (j - (j - i)) with i by lia.
Qed.
Print Assumptions C83_some.

(** The same if equal keys may be there more than once *)
Theorem C83_equal_keys V (comp : V -> V -> bool) o xs hf w i j :
  mset_is comp o xs hf w -> i <= j <= length xs ->
  let n := 2 * (j - i) + 4 * Nat.log2 (S (length xs)) in
  (exists n', (let! b := t_begin o in forward_m (length xs) (2 * length xs) b) w = Done (t_end o, n') w) /\
  (exists n', backward_m (length xs) (2 * length xs) (t_end o) w = Done (tpos (t_hdr o) xs 0, n') w) /\
  (exists n', forward_m (j - i) n (tpos (t_hdr o) xs i) w = Done (tpos (t_hdr o) xs j, n') w) /\
  (exists n', backward_m (j - i) n (tpos (t_hdr o) xs j) w = Done (tpos (t_hdr o) xs i, n') w).
Proof.
  intros Hs%mset_is_set Hij n.
  destruct (C83_all _ _ _ _ _ _ Hs), (C83_some _ _ _ _ _ _ _ _ Hs Hij). done.
Qed.
Print Assumptions C83_equal_keys.

(** The six elements of a set, all passed in 9 rounds forward and 6 backward,
    but in no fewer; the step from the third to the fourth one takes two of them. *)
Definition left_over {C A} (m : M C (A * nat)) (w : world C) : option (A * nat) :=
  match m w with Done a _ => Some a | Fault _ => None end.
Example C83_ex :
  set_is nat_lt exO exX ∅ (tw1 []) /\ mset_is tens mxO mxX ∅ (mw1 []) /\
  length exX = 6 /\ exX.*2 = [5; 10; 15; 20; 30; 40] /\
  left_over (let! b := t_begin exO in forward_m 6 12 b) (tw1 []) = Some (t_end exO, 3) /\
  left_over (let! b := t_begin exO in forward_m 6 8 b) (tw1 []) = None /\
  left_over (backward_m 6 12 (t_end exO)) (tw1 []) = Some (tpos 1 exX 0, 6) /\
  left_over (backward_m 6 5 (t_end exO)) (tw1 []) = None /\
  left_over (increment_m 12 (tpos 1 exX 2)) (tw1 []) = Some (tpos 1 exX 3, 10) /\
  left_over (forward_m 3 12 (tpos 1 exX 1)) (tw1 []) = Some (tpos 1 exX 4, 8).
Proof. split; [apply ex_set|]. split; [apply mx_is|]. split_and!; by vm_compute. Qed.
