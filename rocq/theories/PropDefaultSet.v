(** * set and tree: elements constructed without arguments; the events such a
    construction uses *)
From Verif Require Import VecDefault Asks HonestSet HonestMulti HonestList RbExtra PropSet PropMulti PropDefaultMore.
From Verif Require HonestSp.

(** rbt.hpp:2012-2032, 2058-2086, 2034-2056 with no arguments *)
Definition emplace_unique_default {V} {L : limit} (cf : cfg V) comp (o : tset) : M (tcell V) (addr * bool) :=
  emplace_unique (default_cfg cf) comp o (TAVal (c_default cf)).
Definition emplace_hint_unique_default {V} {L : limit} (cf : cfg V) comp (o : tset) (pos : addr) : M (tcell V) addr :=
  emplace_hint_unique (default_cfg cf) comp o pos (TAVal (c_default cf)).
Definition emplace_equal_default {V} {L : limit} (cf : cfg V) comp (o : tset) : M (tcell V) addr :=
  emplace_equal (default_cfg cf) comp o (TAVal (c_default cf)).

Theorem C34_emplace_default V (cf : cfg V) comp o xs hf w :
  swo comp -> set_is comp o xs hf w -> w_err w = None ->
  runs (emplace_unique_default cf comp o) w (fun r w' =>
    match w_err w' with
    | Some e => tnode_error cf e /\ w_heap w' = w_heap w /\ r = (t_end o, false)
    | None =>
        match r.2 with
        | true => exists pre post, xs = pre ++ post /\ w_heap w !! r.1 = None /\
            set_is comp o (pre ++ (r.1, c_default cf) :: post) hf w'
        | false => w_heap w' = w_heap w /\ exists u, (r.1, u) ∈ xs /\ equivalent comp u (c_default cf)
        end
    end).
Proof.
  intros Hswo Hs He. eapply runs_mono; [eapply (C34_emplace_strong V (default_cfg cf) comp o xs hf w _ (c_default cf)); by try done|].
  cbv beta. intros r w'. destruct (w_err w') as [e|]; [|done]. intros (Hne & Hr). split; [|done].
  destruct Hne as [?|[Hk ?]]; [by left|right]. split; [by apply default_kind|done].
Qed.
Print Assumptions C34_emplace_default.

Theorem C64_emplace_default V (cf : cfg V) comp o xs hf w :
  swo comp -> mset_is comp o xs hf w -> w_err w = None ->
  runs (emplace_equal_default cf comp o) w (put_at comp cf (last_place comp) o xs hf (c_default cf) w).
Proof.
  intros Hswo Hs He. eapply runs_mono; [eapply (C64_emplace_last V (default_cfg cf) comp o xs hf w _ (c_default cf)); by try done|].
  cbv beta. intros r w'. unfold put_at. destruct (w_err w') as [e|]; [|done]. intros (Hne & Hr). split; [|done].
  destruct Hne as [?|[Hk ?]]; [by left|right]. split; [by apply default_kind|done].
Qed.
Print Assumptions C64_emplace_default.

(** ** C51: the events *)

(** A call that returns has used at most [n] events, in order. *)
Definition events_upto {C A} (n : nat) (m : M C A) : Prop := forall w a w',
  m w = Done a w' -> exists k, k <= n /\ w_orc w' = drop k (w_orc w).

Section events.
  Context {C : Type}.

  Lemma events_silent {A} n (m : M C A) : silent m -> events_upto n m.
  Proof. intros Hm w a w' Hr. destruct (Hm _ _ _ Hr) as (Ho & _). exists 0. split; [lia|done]. Qed.
  Lemma events_fail {A} n f : events_upto n (fail (A := A) f : M C A).
  Proof. by intros w a w' Hr. Qed.
  Lemma events_bind {A B} n m (f : M C A) (k : A -> M C B) :
    events_upto n f -> (forall a, events_upto m (k a)) -> events_upto (n + m) (bind f k).
  Proof.
    intros Hf Hk w b w' Hr. unfold bind in Hr. destruct (f w) as [a w1|] eqn:E; [|done].
    destruct (Hf _ _ _ E) as (i & Hi & Ho1). destruct (Hk _ _ _ _ Hr) as (j & Hj & Ho2).
    exists (i + j). split; [lia|]. by rewrite Ho2, Ho1, drop_drop.
  Qed.
  Lemma events_first {A B} n (f : M C A) (k : A -> M C B) : events_upto n f -> (forall a, silent (k a)) -> events_upto n (bind f k).
  Proof. intros Hf Hk. rewrite <-(Nat.add_0_r n). apply events_bind; [done|]. intros a. by apply events_silent. Qed.
  Lemma events_rest {A B} n (f : M C A) (k : A -> M C B) : silent f -> (forall a, events_upto n (k a)) -> events_upto n (bind f k).
  Proof. intros Hf Hk. apply (events_bind 0 n); [by apply events_silent|done]. Qed.
  Lemma events_next : events_upto 1 (next_event : M C event).
  Proof.
    intros w a w' Hr. unfold next_event in Hr. destruct (w_orc w) as [|ev o] eqn:E; injection Hr as <- <-.
    - exists 0. rewrite E. split; [lia|done].
    - exists 1. split; [lia|done].
  Qed.
  Lemma events_tick_ctor : events_upto 0 (tick_ctor : M C unit).
  Proof. intros w a w' [= <- <-]. by exists 0. Qed.
  Lemma events_put_err e : events_upto 0 (put_err e : M C unit).
  Proof. intros w a w' [= <- <-]. by exists 0. Qed.
  Lemma events_alloc c : events_upto 1 (alloc_cell c : M C (option addr)).
  Proof.
    unfold alloc_cell. apply (events_bind 0 1); [intros w a w' [= <- <-]; by exists 0|]. intros _.
    apply (events_bind 1 0); [apply events_next|]. intros [?|?].
    - apply (events_bind 0 0); [apply events_put_err|]. intros _. apply events_silent, silent_ret.
    - apply events_silent. apply silent_bind; [apply silent_get_heap|]. intros h. cbv zeta.
      apply silent_bind; [apply silent_put_heap|]. intros _. apply silent_ret.
  Qed.
  Lemma events_construct_default {V} (cf : cfg V) (place assign : V -> M C unit) unplace rd :
    silent rd -> (forall v, silent (place v)) -> events_upto 1 (construct (default_cfg cf) place assign unplace rd).
  Proof.
    intros Hr Hp. unfold construct, default_cfg. cbn [c_kind].
    assert (events_upto 1 (do! tick_ctor in let! v := rd in let! ev := next_event in
      match ev with EvFail code => put_err (Some (EElem code)) | EvOk _ => place v end)) as Hd.
    { apply (events_bind 0 1); [apply events_tick_ctor|]. intros _. apply events_rest; [done|]. intros v.
      apply (events_bind 1 0); [apply events_next|]. intros [?|?]; [apply events_put_err|apply events_silent, Hp]. }
    destruct (c_kind cf); try exact Hd.
    apply (events_bind 0 1); [apply events_tick_ctor|]. intros _. apply events_rest; [done|]. intros v. apply events_silent, Hp.
  Qed.
End events.

(** A node without arguments: one event for the storage and at most one for the
    element, in every container. *)
Theorem C51_emplace_default_events V (L : limit) (cf : cfg V) comp lo pos (o : tset) hint ks :
  events_upto 2 (lst_emplace_default cf lo pos) /\
  events_upto 2 (emplace_unique_default cf comp o) /\ events_upto 2 (emplace_hint_unique_default cf comp o hint) /\
  events_upto 2 (emplace_equal_default cf comp o) /\
  events_upto 2 (make_shared_default cf ks).
Proof.
  assert (events_upto 2 (tcreate_node (default_cfg cf) o (TAVal (c_default cf)))) as Ht.
  { unfold tcreate_node. apply (events_bind 1 1); [apply events_alloc|]. intros r. apply events_rest; [apply silent_has_err|].
    intros [|]; [apply events_silent; sh|]. apply events_rest; [sh|]. intros a.
    apply events_first; [apply events_construct_default; sh|sh]. }
  assert (forall A (k : option addr -> M (tcell V) A) g, (forall l, silent (k l)) -> silent g ->
    events_upto 2 (let! l := tcreate_node (default_cfg cf) o (TAVal (c_default cf)) in let! e := has_err in if (e : bool) then g else k l)) as Hth.
  { intros A k g Hk Hg. apply events_first; [exact Ht|]. intros l. apply silent_bind; [apply silent_has_err|]. intros [|]; [done|apply Hk]. }
  split_and!.
  - unfold lst_emplace_default, lst_emplace. apply events_first; [|sh].
    unfold create_node. apply (events_bind 1 1); [apply events_alloc|]. intros r. apply events_rest; [apply silent_has_err|].
    intros [|]; [apply events_silent; sh|]. destruct r as [a|]; [|apply events_fail].
    apply events_first; [apply events_construct_default; sh|sh].
  - apply Hth; sh.
  - apply Hth; sh.
  - apply Hth; sh.
  - unfold make_shared_default, SpModel.make_shared, SpModel.make_shared_a.
    apply (events_bind 1 1); [apply events_alloc|]. intros r. apply events_rest; [apply silent_has_err|].
    intros [|]; [apply events_silent; sh|]. destruct r as [c|]; [|apply events_fail].
    apply events_first; [apply events_construct_default; sh|sh].
Qed.
Print Assumptions C51_emplace_default_events.

(** A two-phase element: with an argument the third event is the one of the
    initialiser; without, it is not used. *)
Definition xDS : cfg nat := Cfg true 8 (2^62) 0 TwoPhase 22.
Example C51_emplace_default_example :
  mset_is tens mxO mxX ∅ (mw1 [EvOk 40; EvOk 1; EvFail 9]) /\
  runs (let! it := emplace_equal_default xDS tens mxO in let! l := t_walk mxO in ret (it, l)) (mw1 [EvOk 40; EvOk 1; EvFail 9]) (fun r w' =>
    r = (40%positive, [12; 25; 21; 28; 22; 33; 40]) /\ w_err w' = None /\ length (w_orc w') = 1) /\
  runs (let! it := emplace_equal xDS tens mxO (TAVal 22) in let! l := t_walk mxO in ret (it, l)) (mw1 [EvOk 40; EvOk 1; EvFail 9]) (fun r w' =>
    r = (1%positive, [12; 25; 21; 28; 33; 40]) /\ w_err w' = Some (EElem 9) /\ length (w_orc w') = 0) /\
  runs (let! it := emplace_equal_default xDS tens mxO in let! l := t_walk mxO in ret (it, l)) (mw1 [EvOk 40; EvFail 9]) (fun r w' =>
    r = (1%positive, [12; 25; 21; 28; 33; 40]) /\ w_err w' = Some (EElem 9)).
Proof. split; [apply mx_is|]. split_and!; compute_run. Qed.
