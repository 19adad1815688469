(** * Counting requests: the rules *)
From Verif Require Export Errors AsksSpec.

Section asks.
  Context {C : Type}.

  Lemma asked_0 (w : world C) : w_err w = None -> asked 0 w w.
  Proof. intros He. left. rewrite !Nat.add_0_r. done. Qed.
  Lemma asked_trans n m (w w1 w2 : world C) : asked n w w1 -> w_err w1 = None -> asked m w1 w2 -> asked (n + m) w w2.
  Proof.
    intros [(H1 & H2 & H3)|(H1 & _)] He; [|done]. intros [(K1 & K2 & K3)|(K1 & k & K2 & K3 & K4)]; [left; split_and!; [done|lia..]|].
    right. split; [done|]. exists (n + k). lia.
  Qed.
  Lemma asked_same n (w w1 w2 : world C) :
    asked n w w1 -> w_err w2 = w_err w1 -> w_allocs w2 = w_allocs w1 -> w_ctors w2 = w_ctors w1 -> asked n w w2.
  Proof. intros H He Ha Hc. unfold asked. by rewrite He, Ha, Hc. Qed.
  Lemma asked_from n (w w1 w2 : world C) :
    asked n w1 w2 -> w_allocs w1 = w_allocs w -> w_ctors w1 = w_ctors w -> asked n w w2.
  Proof. intros H Ha Hc. unfold asked. by rewrite <-Ha, <-Hc. Qed.
  Lemma asked_failed n m (w w1 : world C) : asked n w w1 -> w_err w1 <> None -> asked (n + m) w w1.
  Proof. intros [(H1 & _)|(H1 & k & H2 & H3 & H4)] He; [done|]. right. split; [done|]. exists k. lia. Qed.

  Lemma asks_silent {A} (m : M C A) : silent m -> asks 0 m.
  Proof.
    intros Hm w a w' He Hr. destruct (Hm _ _ _ Hr) as (_ & H1 & H2 & H3).
    eapply asked_same; [by apply asked_0|done..].
  Qed.
  Lemma asks_silent_bind {A B} n (m : M C A) (k : A -> M C B) : silent m -> (forall a, asks n (k a)) -> asks n (bind m k).
  Proof.
    intros Hm Hk w b w' He Hr. unfold bind in Hr. destruct (m w) as [a w1|] eqn:E; [|done].
    destruct (Hm _ _ _ E) as (_ & H1 & H2 & H3). eapply asked_from; [|done..]. eapply (Hk a w1); [by rewrite H1|done].
  Qed.
  Lemma asks_bind_silent {A B} n (m : M C A) (k : A -> M C B) : asks n m -> (forall a, silent (k a)) -> asks n (bind m k).
  Proof.
    intros Hm Hk w b w' He Hr. unfold bind in Hr. destruct (m w) as [a w1|] eqn:E; [|done].
    destruct (Hk _ _ _ _ Hr) as (_ & H1 & H2 & H3). eapply asked_same; [by eapply Hm|done..].
  Qed.
  (** a request, the test of the error object, and the rest *)
  Lemma asks_bind_test {A B} n m (f : M C A) (g : A -> M C B) (k : A -> M C B) :
    asks n f -> (forall a, silent (g a)) -> (forall a, asks m (k a)) ->
    asks (n + m) (let! a := f in let! e := has_err in if (e : bool) then g a else k a).
  Proof.
    intros Hf Hg Hk w b w' He Hr. unfold bind at 1 in Hr. destruct (f w) as [a w1|] eqn:E; [|done].
    specialize (Hf _ _ _ He E). unfold bind, has_err in Hr. destruct (w_err w1) as [e|] eqn:E1.
    - destruct (Hg _ _ _ _ Hr) as (_ & H1 & H2 & H3). apply asked_failed; [by eapply asked_same|]. by rewrite H1, E1.
    - eapply asked_trans; [done|done|]. by eapply Hk.
  Qed.
  Lemma asks_fail {A} n f : asks n (fail (A := A) f : M C A).
  Proof. intros w a w' _ Hr. done. Qed.

  Lemma allocs_silent {A} n (m : M C A) : silent m -> allocs_upto n m.
  Proof. intros Hm w a w' Hr. destruct (Hm _ _ _ Hr) as (_ & _ & H & _). lia. Qed.
  Lemma allocs_fail {A} n f : allocs_upto n (fail (A := A) f : M C A).
  Proof. intros w a w' Hr. done. Qed.
  Lemma allocs_bind {A B} n m (f : M C A) (k : A -> M C B) : allocs_upto n f -> (forall a, allocs_upto m (k a)) -> allocs_upto (n + m) (bind f k).
  Proof.
    intros Hf Hk w b w' Hr. unfold bind in Hr. destruct (f w) as [a w1|] eqn:E; [|done].
    apply Hf in E. apply Hk in Hr. lia.
  Qed.
  Lemma allocs_bind_l {A B} n (f : M C A) (k : A -> M C B) : allocs_upto 0 f -> (forall a, allocs_upto n (k a)) -> allocs_upto n (bind f k).
  Proof. apply (allocs_bind 0). Qed.
  Lemma allocs_bind_r {A B} n (f : M C A) (k : A -> M C B) : allocs_upto n f -> (forall a, allocs_upto 0 (k a)) -> allocs_upto n (bind f k).
  Proof. intros Hf Hk. rewrite <-(Nat.add_0_r n). by apply allocs_bind. Qed.

  (** no allocation, [n] constructions *)
  Definition builds {A} (n : nat) (m : M C A) : Prop := forall w a w', m w = Done a w' ->
    w_allocs w' = w_allocs w /\ w_ctors w' = n + w_ctors w.
  Lemma builds_silent {A} (m : M C A) : silent m -> builds 0 m.
  Proof. intros Hm w a w' Hr. by destruct (Hm _ _ _ Hr) as (_ & _ & ? & ?). Qed.
  Lemma builds_bind {A B} n m (f : M C A) (k : A -> M C B) : builds n f -> (forall a, builds m (k a)) -> builds (m + n) (bind f k).
  Proof.
    intros Hf Hk w b w' Hr. unfold bind in Hr. destruct (f w) as [a w1|] eqn:E; [|done].
    apply Hf in E as [? ?]. apply Hk in Hr as [? ?]. split; [congruence|lia].
  Qed.
  Lemma builds_tick : builds 1 (tick_ctor : M C unit).
  Proof. intros w a w' [= <- <-]. done. Qed.
  Lemma builds_event : builds 0 (next_event : M C event).
  Proof. intros w a w'. unfold next_event. destruct (w_orc w); intros [= <- <-]; done. Qed.
  Lemma builds_put_err e : builds 0 (put_err e : M C unit).
  Proof. intros w a w' [= <- <-]. done. Qed.
  Lemma builds_construct {V} (cf : cfg V) (place assign : V -> M C unit) unplace rd :
    silent rd -> (forall v, silent (place v)) -> (forall v, silent (assign v)) -> silent unplace ->
    builds 1 (construct cf place assign unplace rd).
  Proof.
    intros Hr Hp Ha Hu. unfold construct.
    assert (forall e x, builds 0 (match e with EvFail code => put_err (Some (EElem code)) | EvOk _ => place x end)) as H1.
    { intros [?|?] x; [apply builds_put_err|apply builds_silent, Hp]. }
    assert (forall e x, builds 0 (match e with EvFail code => put_err (Some (EElem code)) | EvOk _ => assign x end)) as H2.
    { intros [?|?] x; [apply builds_put_err|apply builds_silent, Ha]. }
    destruct (c_kind cf); (apply (builds_bind 1 0); [apply builds_tick|]); intros _.
    - apply (builds_bind 0 0); [by apply builds_silent|]. intros x. apply builds_silent, Hp.
    - apply (builds_bind 0 0); [by apply builds_silent|]. intros x. apply (builds_bind 0 0); [apply builds_event|]. intros e. apply H1.
    - apply (builds_bind 0 0); [apply builds_event|]. intros e. apply (builds_bind 0 0); [apply H1|]. intros _.
      apply (builds_bind 0 0); [apply builds_silent, silent_has_err|]. intros [|]; [apply builds_silent, silent_ret|].
      apply (builds_bind 0 0); [by apply builds_silent|]. intros x. apply (builds_bind 0 0); [apply builds_event|]. intros e'. apply (builds_bind 0 0); [apply H2|]. intros _.
      apply (builds_bind 0 0); [apply builds_silent, silent_has_err|]. intros [|]; [by apply builds_silent|apply builds_silent, silent_ret].
  Qed.

  Lemma builds_silent_bind {A B} n (m : M C A) (k : A -> M C B) : silent m -> (forall a, builds n (k a)) -> builds n (bind m k).
  Proof. intros Hm Hk. rewrite <-(Nat.add_0_r n). apply builds_bind; [by apply builds_silent|done]. Qed.
  Lemma builds_bind_silent {A B} n (m : M C A) (k : A -> M C B) : builds n m -> (forall a, silent (k a)) -> builds n (bind m k).
  Proof. intros Hm Hk. apply (builds_bind n 0); [done|]. intros a. by apply builds_silent. Qed.
  Lemma builds_fail {A} n f : builds n (fail (A := A) f : M C A).
  Proof. intros w a w' Hr. done. Qed.

  (** creation of a node: the allocation, and if it succeeds the construction *)
  Lemma asks_alloc {A} c (no : M C A) (rest : option addr -> M C A) :
    silent no -> (forall r, builds 1 (rest r)) ->
    asks 1 (let! r := alloc_cell c in let! e := has_err in if (e : bool) then no else rest r).
  Proof.
    intros Hno Hrest w x w' He Hr.
    unfold bind at 1 in Hr. destruct (alloc_cell c w) as [r w1|] eqn:E1; [|done].
    assert (w_allocs w1 = S (w_allocs w) /\ w_ctors w1 = w_ctors w) as [Ha1 Hc1].
    { revert E1. unfold alloc_cell, tick_alloc, next_event, put_err, get_heap, put_heap, ret, bind. simpl.
      destruct (w_orc w) as [|[?|?] ?]; simpl; intros [= <- <-]; done. }
    unfold bind, has_err in Hr. destruct (w_err w1) as [e|] eqn:Ee1.
    - destruct (Hno _ _ _ Hr) as (_ & H1 & H2 & H3). right. split; [by rewrite H1, Ee1|]. exists 0. lia.
    - destruct (Hrest _ _ _ _ Hr) as [H1 H2]. destruct (w_err w') eqn:Ee; [right|left]; rewrite Ee; (split; [done|]); [exists 0|]; lia.
  Qed.
End asks.
