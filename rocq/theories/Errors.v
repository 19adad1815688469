(** * Which errors an operation reports

    [honest L m]: whatever state [m] is started in, if it returns, it has
    consumed some of the environment's answers ([es]) such that
    - no failure is lost: if the error object was clear before and is clear
      afterwards, none of the answers was a failure;
    - no failure is invented: if none of the answers was a failure, the error
      object is as clear as before, or holds an error in [L] (the errors that
      come from size limits and not from the environment);
    - an error that was there before is still reported (perhaps replaced). *)
From Verif Require Export BaseLemmas.

Definition answer_ok (ev : event) : Prop := match ev with EvOk _ => True | EvFail _ => False end.

Section honest.
  Context {C : Type} (L : error -> Prop).

  Definition clear_or (e : option error) : Prop := match e with None => True | Some e => L e end.

  Definition honest {A} (m : M C A) : Prop := forall w a w', m w = Done a w' ->
    exists es, w_orc w = es ++ w_orc w' /\
      (w_err w = None -> w_err w' = None -> Forall answer_ok es) /\
      (clear_or (w_err w) -> Forall answer_ok es -> clear_or (w_err w')) /\
      (w_err w <> None -> w_err w' <> None).

  (** Steps that touch neither the error object nor the environment, and that
      neither call the allocator nor construct an element. *)
  Definition silent {A} (m : M C A) : Prop := forall w a w', m w = Done a w' ->
    w_orc w' = w_orc w /\ w_err w' = w_err w /\ w_allocs w' = w_allocs w /\ w_ctors w' = w_ctors w.

  Lemma silent_honest {A} (m : M C A) : silent m -> honest m.
  Proof.
    intros Hm w a w' Hr. destruct (Hm w a w' Hr) as (Ho & He & _). exists []. rewrite Ho, He. by split_and!.
  Qed.
  Lemma silent_ret {A} (a : A) : silent (ret a).
  Proof. intros w x w' [= -> ->]. done. Qed.
  Lemma silent_fail {A} f : silent (fail (A := A) f).
  Proof. intros w x w' Hf. done. Qed.
  Lemma silent_bind {A B} (m : M C A) (k : A -> M C B) : silent m -> (forall a, silent (k a)) -> silent (bind m k).
  Proof.
    intros Hm Hk w b w' Hr. unfold bind in Hr. destruct (m w) as [a w1|] eqn:E; [|done].
    destruct (Hk a _ _ _ Hr) as (? & ? & ? & ?). destruct (Hm _ _ _ E) as (? & ? & ? & ?). split_and!; congruence.
  Qed.
  Lemma silent_get_heap : silent get_heap.
  Proof. intros w x w' [= <- <-]. done. Qed.
  Lemma silent_put_heap h : silent (put_heap h).
  Proof. intros w x w' [= <- <-]. done. Qed.
  Lemma silent_has_err : silent has_err.
  Proof. intros w x w' [= <- <-]. done. Qed.
  Lemma silent_get_err : silent get_err.
  Proof. intros w x w' [= <- <-]. done. Qed.
  Lemma silent_load a : silent (load a).
  Proof. unfold load. apply silent_bind; [apply silent_get_heap|]. intros h. destruct (h !! a); [apply silent_ret|apply silent_fail]. Qed.
  Lemma silent_store a c : silent (store a c).
  Proof. unfold store. apply silent_bind; [apply silent_get_heap|]. intros h. destruct (h !! a); [apply silent_put_heap|apply silent_fail]. Qed.
  Lemma silent_free a : silent (free_cell a).
  Proof. unfold free_cell. apply silent_bind; [apply silent_get_heap|]. intros h. destruct (h !! a); [apply silent_put_heap|apply silent_fail]. Qed.
  Lemma silent_new_local c : silent (new_local c).
  Proof. unfold new_local. apply silent_bind; [apply silent_get_heap|]. intros h. apply silent_bind; [apply silent_put_heap|]. intros _. apply silent_ret. Qed.
  Lemma silent_assert {V} (cf : cfg V) b : silent (assert_ cf b).
  Proof. unfold assert_. destruct (c_dbg cf && negb b); [apply silent_fail|apply silent_ret]. Qed.

  Lemma honest_ret {A} (a : A) : honest (ret a).
  Proof. apply silent_honest, silent_ret. Qed.
  Lemma honest_fail {A} f : honest (fail (A := A) f).
  Proof. apply silent_honest, silent_fail. Qed.
  Lemma honest_bind {A B} (m : M C A) (k : A -> M C B) : honest m -> (forall a, honest (k a)) -> honest (bind m k).
  Proof.
    intros Hm Hk w b w' Hr. unfold bind in Hr. destruct (m w) as [a w1|] eqn:E; [|done].
    destruct (Hm _ _ _ E) as (es & H1 & H2 & H3 & H4). destruct (Hk a _ _ _ Hr) as (es' & K1 & K2 & K3 & K4).
    exists (es ++ es'). split_and!.
    - rewrite <-(assoc_L (++)). congruence.
    - intros He He'. destruct (w_err w1) eqn:Ew; [by destruct (K4 ltac:(done))|]. apply Forall_app. auto.
    - intros Hc [Hf Hf']%Forall_app. auto.
    - auto.
  Qed.
  Lemma honest_tick_alloc : honest tick_alloc.
  Proof. intros w x w' [= <- <-]. by exists []. Qed.
  Lemma honest_tick_ctor : honest tick_ctor.
  Proof. intros w x w' [= <- <-]. by exists []. Qed.
  Lemma honest_put_err e : L e -> honest (put_err (Some e)).
  Proof. intros HL w a w' [= <- <-]. exists []. simpl. split_and!; done. Qed.

  (** The only ways to set an error: the environment refuses. *)
  Lemma honest_event {A} (k : event -> M C A) :
    (forall x, honest (k (EvOk x))) ->
    (forall code w a w', k (EvFail code) w = Done a w' -> exists es, w_orc w = es ++ w_orc w' /\ w_err w' <> None) ->
    honest (bind next_event k).
  Proof.
    intros Hok Hfail w a w' Hr. unfold bind, next_event in Hr. destruct (w_orc w) as [|ev o] eqn:Eo; [by apply Hok in Hr; rewrite Eo in Hr|].
    destruct ev as [code|x]; swap 1 2.
    - apply Hok in Hr as (es & H1 & H2 & H3 & H4). simpl in *. exists (EvOk x :: es). split_and!; [by rewrite H1| | |done].
      + intros. constructor; [done|auto].
      + intros ? [_ ?]%Forall_cons. auto.
    - apply Hfail in Hr as (es & H1 & H2). simpl in *. exists (EvFail code :: es). split_and!; [by rewrite H1|done| |done].
      intros _ [Hf _]%Forall_cons. done.
  Qed.

  Lemma honest_alloc c : honest (alloc_cell c).
  Proof.
    unfold alloc_cell. apply honest_bind; [apply honest_tick_alloc|]. intros _. apply honest_event.
    - intros x. apply silent_honest. apply silent_bind; [apply silent_get_heap|]. intros h.
      apply silent_bind; [apply silent_put_heap|]. intros _. apply silent_ret.
    - intros code w a w' [= <- <-]. by exists [].
  Qed.
  Lemma honest_construct {V} (cf : cfg V) place assign unplace (rd : M C V) :
    silent rd -> (forall v, silent (place v)) -> (forall v, silent (assign v)) -> silent unplace ->
    honest (construct cf place assign unplace rd).
  Proof.
    intros Hr Hp Ha Hu. unfold construct. destruct (c_kind cf).
    - apply honest_bind; [apply honest_tick_ctor|]. intros _. apply honest_bind; [by apply silent_honest|]. intros v. apply silent_honest, Hp.
    - apply honest_bind; [apply honest_tick_ctor|]. intros _. apply honest_bind; [by apply silent_honest|]. intros v. apply honest_event.
      + intros x. by apply silent_honest.
      + intros code w a w' [= <- <-]. by exists [].
    - apply honest_bind; [apply honest_tick_ctor|]. intros _. apply honest_event.
      + intros x. apply honest_bind; [by apply silent_honest|]. intros _.
        apply honest_bind; [apply silent_honest, silent_has_err|]. intros [|]; [apply honest_ret|].
        apply honest_bind; [by apply silent_honest|]. intros v. apply honest_event.
        * intros y. apply honest_bind; [by apply silent_honest|]. intros _.
          apply honest_bind; [apply silent_honest, silent_has_err|]. intros [|]; [by apply silent_honest|apply honest_ret].
        * intros code w a w' Hrun. unfold bind, put_err, has_err in Hrun. simpl in Hrun.
          destruct (Hu _ _ _ Hrun) as (Ho & He & _). exists []. rewrite Ho, He. done.
      + intros code w a w' [= <- <-]. by exists [].
  Qed.
End honest.

(** A failure inside a call that has its own error object (the throwing
    wrappers) is returned by it. *)
Definition throws_exactly {C A} (L : error -> Prop) (m : M C (A * option error)) : Prop :=
  forall w a e w', m w = Done (a, e) w' ->
    w_err w' = w_err w /\
    exists es, w_orc w = es ++ w_orc w' /\ (e = None -> Forall answer_ok es) /\ (Forall answer_ok es -> clear_or L e).
Lemma honest_throws {C A} L (m : M C A) : honest L m -> throws_exactly L (with_local_err m).
Proof.
  intros Hm w a e w' Hr. unfold with_local_err, bind, get_err, put_err in Hr. simpl in Hr.
  destruct (m _) as [x w1|] eqn:E; [|done]. destruct (Hm _ _ _ E) as (es & H1 & H2 & H3 & _).
  injection Hr as <- <- <-. simpl in *. split; [done|]. exists es. split_and!; auto.
Qed.

(** Walking through a function: [silent_step], [honest_step] handle one
    construct; case distinctions are followed. *)
Ltac sh_split :=
  match goal with
  | |- silent (match ?x with _ => _ end) => destruct x
  | |- honest _ (match ?x with _ => _ end) => destruct x
  | |- silent (let _ := _ in _) => cbv zeta
  | |- honest _ (let _ := _ in _) => cbv zeta
  | |- silent (if ?x then _ else _) => destruct x
  | |- honest _ (if ?x then _ else _) => destruct x
  end.
Create HintDb shdb discriminated.
#[global] Hint Resolve silent_ret silent_fail silent_get_heap silent_put_heap silent_has_err silent_get_err
  silent_load silent_store silent_free silent_new_local silent_assert
  honest_ret honest_fail honest_alloc honest_tick_alloc honest_tick_ctor : shdb.
Ltac sh :=
  repeat (intros;
    first
    [ solve [eauto 2 with shdb nocore]
    | solve [apply silent_honest; eauto 2 with shdb nocore]
    | apply silent_bind
    | apply honest_bind
    | apply honest_construct
    | sh_split ]); intros.
(** The same with an induction hypothesis. *)
Ltac shr IH :=
  repeat (intros;
    first
    [ solve [eauto 2 with shdb nocore]
    | apply IH
    | solve [apply silent_honest; eauto 2 with shdb nocore]
    | apply silent_bind
    | apply honest_bind
    | apply honest_construct
    | sh_split ]); intros.
