(** * What set operations do, as a function of the failures of the environment

    As in [ListDet.v]: which requests a call makes, and what it reports, is
    computed from the answers of the environment; the addresses it hands out do
    not enter. *)
From Verif Require Export ListDet HonestSet RbAsks RbExtra RbHist.

Section makes.
  Context {V : Type} {LL : limit} (cf : cfg V).
  Notation MT := (M (tcell V)).

  (** The call makes one node. *)
  Definition tmakes {A} (m : MT A) : Prop := forall w a w', w_err w = None -> m w = Done a w' ->
    (w_err w', w_orc w') = one_node cf (w_orc w).

  Lemma tconstruct_answers (place assign : V -> MT unit) unplace arg w w' u :
    (forall v, silent (place v)) -> (forall v, silent (assign v)) -> silent unplace -> silent arg ->
    w_err w = None -> construct cf place assign unplace arg w = Done u w' ->
    (w_err w', w_orc w') = match c_kind cf with
        | Nothrow => (None, w_orc w)
        | Direct => one_answer (w_orc w)
        | TwoPhase => match one_answer (w_orc w) with (Some e, o) => (Some e, o) | (None, o) => one_answer o end
        end.
  Proof.
    intros Hp Ha Hu Hr He. unfold construct. destruct (c_kind cf).
    - intros (t & w1 & [= <- <-] & (v & w2 & H2 & H3)%bind_done)%bind_done.
      destruct (Hr _ _ _ H2) as (Ho2 & He2 & _), (Hp _ _ _ _ H3) as (Ho3 & He3 & _). simpl in *. congruence.
    - intros (t & w1 & [= <- <-] & (v & w2 & H2 & (ev & w3 & H3 & H4)%bind_done)%bind_done)%bind_done.
      destruct (Hr _ _ _ H2) as (Ho2 & He2 & _). simpl in *. unfold next_event in H3. rewrite Ho2 in H3.
      destruct (w_orc w) as [|[c|a] o]; simplify_eq/=.
      + destruct (Hp _ _ _ _ H4) as (Ho3 & He3 & _). congruence.
      + by unfold put_err, ret in H4; simplify_eq/=.
      + destruct (Hp _ _ _ _ H4) as (Ho3 & He3 & _). simpl in *. congruence.
    - intros (t & w1 & [= <- <-] & (ev & w2 & H2 & (q & w3 & H3 & (b & w4 & H4 & H5)%bind_done)%bind_done)%bind_done)%bind_done.
      unfold has_err in H4. injection H4 as <- <-.
      assert (H23 : (w_err w3, w_orc w3) = one_answer (w_orc w)).
      { unfold next_event in H2. simpl in H2. destruct (w_orc w) as [|[c|a] o] eqn:Eo; simplify_eq/=.
        + destruct (Hp _ _ _ _ H3) as (Ho3 & He3 & _). simpl in *. congruence.
        + by unfold put_err, ret in H3; simplify_eq/=.
        + destruct (Hp _ _ _ _ H3) as (Ho3 & He3 & _). simpl in *. congruence. }
      rewrite <-H23. destruct (w_err w3) as [e|] eqn:E3.
      + (unfold has_err, ret in H5; simplify_eq). by rewrite E3.
      + apply bind_done in H5 as (v & w5 & H5 & (ev2 & w6 & H6 & (q2 & w7 & H7 & (b & w8 & H8 & H9)%bind_done)%bind_done)%bind_done).
        unfold has_err in H8. injection H8 as <- <-. destruct (Hr _ _ _ H5) as (Ho5 & He5 & _).
        rewrite <-Ho5. assert (H67 : (w_err w7, w_orc w7) = one_answer (w_orc w5)).
        { unfold next_event in H6. simpl in H6. destruct (w_orc w5) as [|[c|a] o] eqn:Eo; simplify_eq/=.
          + destruct (Ha _ _ _ _ H7) as (Ho3 & He3 & _). simpl in *. congruence.
          + by unfold put_err, ret in H7; simplify_eq/=.
          + destruct (Ha _ _ _ _ H7) as (Ho3 & He3 & _). simpl in *. congruence. }
        rewrite <-H67. destruct (w_err w7) as [e|] eqn:E7; [|by unfold ret in H9; simplify_eq; rewrite E7].
        destruct (Hu _ _ _ H9) as (-> & -> & _). by rewrite E7.
  Qed.

  Lemma tmakes_create_node o x : tmakes (tcreate_node cf o x).
  Proof.
    intros w a w' He. unfold tcreate_node. intros (r & w1 & H1 & (b & w2 & H2 & H3)%bind_done)%bind_done.
    unfold has_err in H2. injection H2 as <- <-.
    unfold alloc_cell in H1. apply bind_done in H1 as (t & wt & [= <- <-] & (ev & we & H4 & H5)%bind_done).
    unfold one_node. unfold next_event in H4. simpl in H4.
    destruct (w_orc w) as [|[c|hint] orc] eqn:Eo; simplify_eq/=.
    2: { unfold bind, put_err, ret in H5. injection H5 as <- <-. simpl in H3. unfold ret in H3. by injection H3 as <- <-. }
    all: unfold bind, get_heap, put_heap, ret in H5; injection H5 as <- <-; simpl in H3; rewrite He in H3.
    all: apply bind_done in H3 as (z & wz & [= <- <-] & (u & w4 & H4 & (b & w5 & H6 & H7)%bind_done)%bind_done); unfold has_err in H6; injection H6 as <- <-.
    all: apply tconstruct_answers in H4; [|intros; sh|intros; sh|sh|sh|done]; simpl in H4; rewrite ?Eo in H4; rewrite <-H4.
    all: destruct (w_err w4) as [e|] eqn:E4; [|by unfold ret in H7; simplify_eq; rewrite E4].
    all: apply bind_done in H7 as (u2 & w6 & H7 & [= <- <-]).
    all: match goal with H : put_node _ _ _ = _ |- _ => apply (sh_put_node V) in H; destruct H as (-> & -> & _) end.
    all: by rewrite E4.
  Qed.

  Lemma tmakes_bind_silent {A B} (m : MT A) (k : A -> MT B) : tmakes m -> (forall a, silent (k a)) -> tmakes (bind m k).
  Proof.
    intros Hm Hk w b w' He (a & w1 & H1 & H2)%bind_done. destruct (Hk _ _ _ _ H2) as (-> & -> & _).
    by eapply Hm.
  Qed.
  Lemma tmakes_emplace comp o x : tmakes (emplace_unique cf comp o x).
  Proof. unfold emplace_unique. apply tmakes_bind_silent; [apply tmakes_create_node|]. intros r. sh. Qed.
  Lemma tmakes_emplace_hint comp o p x : tmakes (emplace_hint_unique cf comp o p x).
  Proof. unfold emplace_hint_unique. apply tmakes_bind_silent; [apply tmakes_create_node|]. intros r. sh. Qed.

  (** ** Calls that make some nodes one after the other *)

  Definition grew (w w' : world (tcell V)) : Prop := exists k, match w_err w' with
    | None => w_allocs w' = k + w_allocs w /\ n_nodes cf k (w_orc w) = (k, None, w_orc w')
    | Some e => w_allocs w' = S k + w_allocs w /\ n_nodes cf (S k) (w_orc w) = (k, Some e, w_orc w')
    end.
  Definition grows {A} (m : MT A) : Prop := forall w a w', w_err w = None -> m w = Done a w' -> grew w w'.

  Lemma n_nodes_app k m o o1 : n_nodes cf k o = (k, None, o1) ->
    n_nodes cf (k + m) o = let '(j, e, o2) := n_nodes cf m o1 in (k + j, e, o2).
  Proof.
    revert o. induction k as [|k IH]; intros o; simpl.
    - intros [= <-]. by destruct (n_nodes cf m o) as [[??]?].
    - destruct (one_node cf o) as [[e|] o2]; [done|]. destruct (n_nodes cf k o2) as [[j e] o3] eqn:E. intros [= -> -> ->].
      rewrite (IH _ E). by destruct (n_nodes cf m o1) as [[??]?].
  Qed.
  Lemma n_nodes_more k e m o o1 : n_nodes cf (S k) o = (k, Some e, o1) -> n_nodes cf (S k + m) o = (k, Some e, o1).
  Proof.
    revert o. induction k as [|k IH]; intros o.
    - simpl. destruct (one_node cf o) as [[e'|] o2]; [done|done].
    - change (n_nodes cf (S (S k)) o) with (match one_node cf o with (Some e, o) => (0, Some e, o) | (None, o) => let '(k, e, o) := n_nodes cf (S k) o in (S k, e, o) end).
      change (n_nodes cf (S (S k) + m) o) with (match one_node cf o with (Some e, o) => (0, Some e, o) | (None, o) => let '(k, e, o) := n_nodes cf (S k + m) o in (S k, e, o) end).
      destruct (one_node cf o) as [[e'|] o2]; [done|]. destruct (n_nodes cf (S k) o2) as [[j e'] o3] eqn:E. intros [= -> -> ->].
      by rewrite (IH _ E).
  Qed.

  Lemma grew_refl w w' : w_err w = None -> w_orc w' = w_orc w -> w_err w' = w_err w -> w_allocs w' = w_allocs w -> grew w w'.
  Proof. intros He Ho He' Ha. exists 0. rewrite He', He, Ho. by simpl. Qed.
  Lemma grew_trans w w1 w2 : grew w w1 -> w_err w1 = None -> grew w1 w2 -> grew w w2.
  Proof.
    intros (k & Hk) He (m & Hm). rewrite He in Hk. destruct Hk as [Ha Hk]. exists (k + m).
    destruct (w_err w2) as [e|]; destruct Hm as [Ha2 Hm]; (split; [lia|]).
    - rewrite <-Nat.add_succ_r. rewrite (n_nodes_app _ _ _ _ Hk), Hm. done.
    - rewrite (n_nodes_app _ _ _ _ Hk), Hm. done.
  Qed.
  Lemma grew_same w w1 w2 : grew w w1 -> w_orc w2 = w_orc w1 -> w_err w2 = w_err w1 -> w_allocs w2 = w_allocs w1 -> grew w w2.
  Proof. intros (k & Hk) Ho He Ha. exists k. by rewrite Ho, He, Ha. Qed.

  Lemma grows_silent {A} (m : MT A) : silent m -> grows m.
  Proof. intros Hm w a w' He Hr. destruct (Hm _ _ _ Hr) as (Ho & He' & Ha & _). by apply grew_refl. Qed.
  Lemma grows_silent_bind {A B} (m : MT A) (k : A -> MT B) : silent m -> (forall a, grows (k a)) -> grows (bind m k).
  Proof.
    intros Hm Hk w b w' He (a & w1 & H1 & H2)%bind_done. destruct (Hm _ _ _ H1) as (Ho1 & He1 & Ha1 & _).
    eapply grew_trans; [by eapply grew_refl|congruence|]. eapply Hk; [|exact H2]. congruence.
  Qed.
  Lemma grows_bind_silent {A B} (m : MT A) (k : A -> MT B) : grows m -> (forall a, silent (k a)) -> grows (bind m k).
  Proof.
    intros Hm Hk w b w' He (a & w1 & H1 & H2)%bind_done. destruct (Hk _ _ _ _ H2) as (? & ? & ? & _).
    eapply grew_same; [by eapply Hm|done..].
  Qed.
  (** a flag that says whether an error is reported *)
  Definition flags (m : MT bool) : Prop := grows m /\ forall w b w', w_err w = None -> m w = Done b w' -> b = bool_decide (is_Some (w_err w')).
  Lemma grows_flag {B} (m : MT bool) (g k : MT B) : flags m -> silent g -> grows k -> grows (let! e := m in if (e : bool) then g else k).
  Proof.
    intros [Hm Hf] Hg Hk w b w' He (a & w1 & H1 & H2)%bind_done. pose proof (Hm _ _ _ He H1) as Hg1. rewrite (Hf _ _ _ He H1) in H2.
    destruct (w_err w1) as [e|] eqn:E1.
    - rewrite bool_decide_true in H2 by (by eexists). destruct (Hg _ _ _ H2) as (? & ? & ? & _). by eapply grew_same.
    - rewrite bool_decide_false in H2 by (by intros [??]). eapply grew_trans; [done|done|]. by eapply Hk.
  Qed.
  Lemma grows_test {A B} (m : MT A) (g k : A -> MT B) : grows m -> (forall a, silent (g a)) -> (forall a, grows (k a)) ->
    grows (let! a := m in let! e := has_err in if (e : bool) then g a else k a).
  Proof.
    intros Hm Hg Hk w b w' He (a & w1 & H1 & (f & w2 & H2 & H3)%bind_done)%bind_done. unfold has_err in H2. injection H2 as <- <-.
    pose proof (Hm _ _ _ He H1) as Hg1. destruct (w_err w1) as [e|] eqn:E1.
    - destruct (Hg _ _ _ _ H3) as (? & ? & ? & _). by eapply grew_same.
    - eapply grew_trans; [done|done|]. by eapply Hk.
  Qed.
  Lemma grows_create_node o x : grows (tcreate_node cf o x).
  Proof.
    intros w a w' He Hr. pose proof (tmakes_create_node _ _ _ _ _ He Hr) as Hm. pose proof (asks_create_node cf o x _ _ _ He Hr) as Ha.
    destruct (w_err w') as [e|] eqn:E.
    - exists 0. rewrite E. simpl. rewrite <-Hm. split; [|done]. destruct Ha as [(? & _)|(_ & k & ? & ? & _)]; [congruence|lia].
    - exists 1. rewrite E. simpl. rewrite <-Hm. split; [|done]. destruct Ha as [(_ & ? & _)|(? & _)]; [lia|congruence].
  Qed.
  Lemma grows_clone o x : grows (clone_node cf o x).
  Proof. unfold clone_node. apply grows_test; [apply grows_create_node|sh|]. intros a. apply grows_silent. sh. Qed.
  Lemma grows_copy fuel : (forall o x p, grows (m_copy cf fuel o x p)) /\ (forall o top p x, grows (copy_loop cf fuel o top p x)).
  Proof.
    induction fuel as [|fuel [IHm IHl]]; [split; intros; by intros ????|].
    assert (Hfl : forall o y r, flags (match r with
                       | Some r =>
                           let! r' := m_copy cf fuel o r y in
                           do! set_right y r' in
                           has_err
                       | None => ret false
                       end)).
    { intros o y [r|]; split.
      - apply grows_bind_silent; [apply IHm|]. sh.
      - intros w b w' _ (r' & w1 & _ & (u & w2 & _ & H3)%bind_done)%bind_done. unfold has_err in H3. injection H3 as <- <-. by destruct (w_err w2).
      - apply grows_silent. sh.
      - intros w b w' He [= <- <-]. by rewrite He. }
    split; intros; cbn [m_copy copy_loop].
    - apply grows_test; [apply grows_clone|sh|]. intros a. do 3 (apply grows_silent_bind; [sh|]; intros ?).
      apply grows_flag; [apply Hfl|sh|]. apply grows_silent_bind; [sh|]. intros ?. apply IHl.
    - destruct x as [x|]; [|apply grows_silent; sh].
      apply grows_test; [apply grows_clone|sh|]. intros a. do 4 (apply grows_silent_bind; [sh|]; intros ?).
      apply grows_flag; [apply Hfl|sh|]. apply grows_silent_bind; [sh|]. intros ?. apply IHl.
  Qed.
  Lemma grows_t_copy o other : grows (t_copy cf o other).
  Proof.
    unfold t_copy. destruct (decide _); [apply grows_silent; sh|]. apply grows_test; [apply grows_silent; sh|sh|]. intros _.
    apply grows_silent_bind; [sh|]. intros [r|]; [|apply grows_silent; sh]. apply grows_silent_bind; [sh|]. intros fuel.
    apply grows_test; [apply grows_copy|sh|]. intros l. apply grows_silent. sh.
  Qed.
  (** Together with the number of requests: *)
  Lemma grew_asked n w w' : grew w w' -> asked n w w' -> exists k, n_nodes cf n (w_orc w) = (k, w_err w', w_orc w').
  Proof.
    intros (k & Hk) [(He & Ha & _)|(He & j & Hj & Ha & _)].
    - rewrite He in *. destruct Hk as [Hka Hk]. exists k. by replace n with k by lia.
    - destruct (w_err w') as [e|]; [|done]. destruct Hk as [Hka Hk]. exists k.
      replace n with (S k + (n - S k)) by lia. by apply n_nodes_more.
  Qed.
End makes.
