(** * What list operations do, as a function of the failures of the environment

    The lemmas of [ListMore.v] leave open how many elements a failing call has
    added.  Here the number is computed from the answers of the environment;
    the addresses it hands out do not enter. *)
From Verif Require Export HonestList Asks ListExtra ConcSpec.

Section answers.
  Context {V : Type} (cf : cfg V).

  (** One answer to the construction of an element. *)
  Definition one_answer (o : list event) : option error * list event :=
    match o with
    | [] => (None, [])
    | EvFail c :: o => (Some (EElem c), o)
    | EvOk _ :: o => (None, o)
    end.
  (** A node is allocated and its element constructed: what is reported, and
      the answers that are left. *)
  Definition one_node (o : list event) : option error * list event :=
    match o with
    | EvFail _ :: o => (Some EBadAlloc, o)
    | _ =>
        match c_kind cf with
        | Nothrow => (None, tail o)
        | Direct => one_answer (tail o)
        | TwoPhase =>
            match one_answer (tail o) with
            | (Some e, o) => (Some e, o)
            | (None, o) => one_answer o
            end
        end
    end.
  (** Up to [n] nodes: how many are made, what is reported. *)
  Fixpoint n_nodes (n : nat) (o : list event) : nat * option error * list event :=
    match n with
    | 0 => (0, None, o)
    | S n =>
        match one_node o with
        | (Some e, o) => (0, Some e, o)
        | (None, o) => let '(k, e, o) := n_nodes n o in (S k, e, o)
        end
    end.

  Lemma n_nodes_ok n o k e o' : n_nodes n o = (k, e, o') -> k <= n /\ (e = None -> k = n) /\ (e <> None -> k < n).
  Proof.
    revert o k e o'. induction n as [|n IH]; intros o k e o'; simpl; [by intros [= <- <- <-]|].
    destruct (one_node o) as [[e1|] o1]; [intros [= <- <- <-]; split_and!; [lia|done|lia]|].
    destruct (n_nodes n o1) as [[k1 e2] o2] eqn:E. intros [= <- <- <-]. destruct (IH _ _ _ _ E) as (? & H1 & H2).
    split_and!; [lia| |]; intros He; [rewrite H1 by done; lia|]. specialize (H2 He). lia.
  Qed.

  Lemma same_tail o o' : same_failures o o' -> same_failures (tail o) (tail o').
  Proof.
    intros Hs k c. specialize (Hs (S k) c). destruct o as [|x o], o' as [|y o']; simpl in *; rewrite ?lookup_nil in *; try done; exact Hs.
  Qed.
  Lemma same_one_answer o o' : same_failures o o' -> (one_answer o).1 = (one_answer o').1 /\ same_failures (one_answer o).2 (one_answer o').2.
  Proof.
    intros Hs. pose proof (same_tail _ _ Hs) as Ht. pose proof (fun c => Hs 0 c) as H0.
    destruct o as [|[c|a] o], o' as [|[c'|a'] o']; simpl in *; split; try done; try (specialize (H0 c)); try (specialize (H0 c')); naive_solver.
  Qed.
  Lemma one_node_same o o' : same_failures o o' -> (one_node o).1 = (one_node o').1 /\ same_failures (one_node o).2 (one_node o').2.
  Proof.
    intros Hs. pose proof (same_tail _ _ Hs) as Ht. pose proof (fun c => Hs 0 c) as H0.
    assert (Hrest : forall t t', same_failures t t' ->
      let f t := match c_kind cf with
        | Nothrow => (None, t)
        | Direct => one_answer t
        | TwoPhase => match one_answer t with (Some e, o) => (Some e, o) | (None, o) => one_answer o end
        end in (f t).1 = (f t').1 /\ same_failures (f t).2 (f t').2).
    { intros t t' Hst. simpl. destruct (c_kind cf); [done|by apply same_one_answer|].
      destruct (same_one_answer _ _ Hst) as [H1 H2]. destruct (one_answer t) as [[e|] u], (one_answer t') as [[e'|] u']; simpl in *; try done.
      by apply same_one_answer. }
    destruct o as [|[c|a] o], o' as [|[c'|a'] o']; simpl in *; try (by apply Hrest);
      try (specialize (H0 c)); try (specialize (H0 c')); naive_solver.
  Qed.
  Lemma n_nodes_same n o o' : same_failures o o' -> (n_nodes n o).1 = (n_nodes n o').1 /\ same_failures (n_nodes n o).2 (n_nodes n o').2.
  Proof.
    revert o o'. induction n as [|n IH]; intros o o' Hs; simpl; [done|].
    destruct (one_node_same _ _ Hs) as [H1 H2]. destruct (one_node o) as [[e|] u], (one_node o') as [[e'|] u']; simpl in *; simplify_eq; try done.
    destruct (IH _ _ H2) as [H3 H4]. destruct (n_nodes n u) as [[k e] t], (n_nodes n u') as [[k' e'] t']; simpl in *. by simplify_eq.
  Qed.
End answers.

Section makes.
  Context {V : Type} (cf : cfg V).
  Notation ML := (M (lcell V)).

  (** The call makes one node. *)
  Definition makes {A} (m : ML A) : Prop := forall w a w', w_err w = None -> m w = Done a w' ->
    (w_err w', w_orc w') = one_node cf (w_orc w).

  Lemma bind_done {C A B} (m : M C A) (k : A -> M C B) w b w' : bind m k w = Done b w' ->
    exists a w1, m w = Done a w1 /\ k a w1 = Done b w'.
  Proof. unfold bind. destruct (m w) as [a w1|]; [eauto|done]. Qed.

  Lemma makes_silent_bind {A B} (m : ML A) (k : A -> ML B) : silent m -> (forall a, makes (k a)) -> makes (bind m k).
  Proof.
    intros Hm Hk w b w' He (a & w1 & H1 & H2)%bind_done. destruct (Hm _ _ _ H1) as (Ho1 & He1 & _).
    rewrite <-Ho1. eapply Hk; [|exact H2]. congruence.
  Qed.
  Lemma makes_bind_silent {A B} (m : ML A) (k : A -> ML B) : makes m -> (forall a, silent (k a)) -> makes (bind m k).
  Proof.
    intros Hm Hk w b w' He (a & w1 & H1 & H2)%bind_done. destruct (Hk _ _ _ _ H2) as (-> & -> & _).
    by eapply Hm.
  Qed.

  Lemma construct_answers (place assign : V -> ML unit) unplace arg w w' u :
    (forall v, silent (place v)) -> (forall v, silent (assign v)) -> silent unplace -> silent arg ->
    w_err w = None -> construct cf place assign unplace arg w = Done u w' ->
    (w_err w', w_orc w') = match c_kind cf with
        | Nothrow => (None, w_orc w)
        | Direct => one_answer (w_orc w)
        | TwoPhase => match one_answer (w_orc w) with (Some e, o) => (Some e, o) | (None, o) => one_answer o end
        end.
  Proof.
    intros Hp Ha Hu Hr He. unfold construct. destruct (c_kind cf).
    - intros (t & w1 & [= <- <-] & (v & w2 & H2 & H3)%bind_done)%bind_done.
      destruct (Hr _ _ _ H2) as (Ho2 & He2 & _), (Hp _ _ _ _ H3) as (Ho3 & He3 & _). simpl in *. congruence.
    - intros (t & w1 & [= <- <-] & (v & w2 & H2 & (ev & w3 & H3 & H4)%bind_done)%bind_done)%bind_done.
      destruct (Hr _ _ _ H2) as (Ho2 & He2 & _). simpl in *. unfold next_event in H3. rewrite Ho2 in H3.
      destruct (w_orc w) as [|[c|a] o]; simplify_eq/=.
      + destruct (Hp _ _ _ _ H4) as (Ho3 & He3 & _). congruence.
      + by unfold put_err, ret in H4; simplify_eq/=.
      + destruct (Hp _ _ _ _ H4) as (Ho3 & He3 & _). simpl in *. congruence.
    - intros (t & w1 & [= <- <-] & (ev & w2 & H2 & (q & w3 & H3 & (b & w4 & H4 & H5)%bind_done)%bind_done)%bind_done)%bind_done.
      unfold has_err in H4. injection H4 as <- <-.
      assert (H23 : (w_err w3, w_orc w3) = one_answer (w_orc w)).
      { unfold next_event in H2. simpl in H2. destruct (w_orc w) as [|[c|a] o] eqn:Eo; simplify_eq/=.
        + destruct (Hp _ _ _ _ H3) as (Ho3 & He3 & _). simpl in *. congruence.
        + by unfold put_err, ret in H3; simplify_eq/=.
        + destruct (Hp _ _ _ _ H3) as (Ho3 & He3 & _). simpl in *. congruence. }
      rewrite <-H23. destruct (w_err w3) as [e|] eqn:E3.
      + (unfold has_err, ret in H5; simplify_eq). by rewrite E3.
      + apply bind_done in H5 as (v & w5 & H5 & (ev2 & w6 & H6 & (q2 & w7 & H7 & (b & w8 & H8 & H9)%bind_done)%bind_done)%bind_done).
        unfold has_err in H8. injection H8 as <- <-. destruct (Hr _ _ _ H5) as (Ho5 & He5 & _).
        rewrite <-Ho5. assert (H67 : (w_err w7, w_orc w7) = one_answer (w_orc w5)).
        { unfold next_event in H6. simpl in H6. destruct (w_orc w5) as [|[c|a] o] eqn:Eo; simplify_eq/=.
          + destruct (Ha _ _ _ _ H7) as (Ho3 & He3 & _). simpl in *. congruence.
          + by unfold put_err, ret in H7; simplify_eq/=.
          + destruct (Ha _ _ _ _ H7) as (Ho3 & He3 & _). simpl in *. congruence. }
        rewrite <-H67. destruct (w_err w7) as [e|] eqn:E7; [|by unfold ret in H9; simplify_eq; rewrite E7].
        destruct (Hu _ _ _ H9) as (-> & -> & _). by rewrite E7.
  Qed.

  Lemma makes_create_node o x : makes (create_node cf o x).
  Proof.
    intros w a w' He. unfold create_node. intros (r & w1 & H1 & (b & w2 & H2 & H3)%bind_done)%bind_done.
    unfold has_err in H2. injection H2 as <- <-.
    unfold alloc_cell in H1. apply bind_done in H1 as (t & wt & [= <- <-] & (ev & we & H4 & H5)%bind_done).
    unfold one_node. unfold next_event in H4. simpl in H4.
    destruct (w_orc w) as [|[c|hint] orc] eqn:Eo; simplify_eq/=.
    2: { unfold bind, put_err, ret in H5. injection H5 as <- <-. simpl in H3. unfold ret in H3. by injection H3 as <- <-. }
    all: unfold bind, get_heap, put_heap, ret in H5; injection H5 as <- <-; simpl in H3; rewrite He in H3.
    all: apply bind_done in H3 as (u & w4 & H4 & (b & w5 & H6 & H7)%bind_done); unfold has_err in H6; injection H6 as <- <-.
    all: apply construct_answers in H4; [|intros; sh|intros; sh|sh|sh|done]; simpl in H4; rewrite ?Eo in H4; rewrite <-H4.
    all: destruct (w_err w4) as [e|] eqn:E4; [|by unfold ret in H7; simplify_eq; rewrite E4].
    all: apply bind_done in H7 as (u2 & w6 & H7 & [= <- <-]).
    all: match goal with H : deallocate_node _ _ _ = _ |- _ => apply (sh_deallocate_node V) in H; destruct H as (-> & -> & _) end.
    all: by rewrite E4.
  Qed.
  Lemma makes_emplace o pos x : makes (lst_emplace cf o pos x).
  Proof. unfold lst_emplace. apply makes_bind_silent; [apply makes_create_node|]. intros r. sh. Qed.
  Lemma makes_push_back o x : makes (lst_push_back cf o x).
  Proof. unfold lst_push_back. apply makes_silent_bind; [sh|]. intros e. apply makes_bind_silent; [apply makes_emplace|]. intros r. sh. Qed.
  Lemma makes_push_front o x : makes (lst_push_front cf o x).
  Proof. unfold lst_push_front. apply makes_silent_bind; [sh|]. intros e. apply makes_bind_silent; [apply makes_emplace|]. intros r. sh. Qed.

  Lemma runs_makes {A} (m : ML A) w (Q : A -> world (lcell V) -> Prop) : makes m -> w_err w = None -> runs m w Q ->
    runs m w (fun a w' => Q a w' /\ (w_err w', w_orc w') = one_node cf (w_orc w)).
  Proof. intros Hm He (a & w' & Hr & HQ). exists a, w'. split; [done|]. split; [done|]. by eapply Hm. Qed.
End makes.

Section exact.
  Context {V : Type} (cf : cfg V).
  Notation H := (gmap addr (lcell V)).
  Notation W := (world (lcell V)).
  Notation L := (list (addr * list (addr * V))).
  Notation E := (addr * V)%type.
  Notation objs hds := (Lst (c_dflt cf) <$> hds).
  Implicit Types hv hf : H.
  Implicit Types w : W.
  Implicit Types ls R : L.

  Lemma exact_insert w al hdr l r R hv hf x v :
    heap_is w hv hf -> lists_own al ((hdr, l ++ r) :: R) hv -> w_err w = None -> arg_in ((hdr, l ++ r) :: R) hf x v ->
    runs (lst_insert cf (Lst al hdr) (hdx r.*1 hdr) x) w (fun a w' => (w_err w', w_orc w') = one_node cf (w_orc w) /\
      match w_err w' with
      | None => exists hv', lists_own al ((hdr, l ++ (a, v) :: r) :: R) hv' /\ heap_is w' hv' hf
      | Some _ => w_heap w' = w_heap w
      end).
  Proof.
    intros Hh Ho He Hx. eapply runs_mono; [eapply (runs_makes cf _ _ (fun a w' => match w_err w' with
      | None => exists hv', lists_own al ((hdr, l ++ (a, v) :: r) :: R) hv' /\ heap_is w' hv' hf
      | Some _ => w_heap w' = w_heap w end)); [apply makes_emplace|done|]|by intros a w' [? ?]].
    eapply runs_insert; [done..| |].
    - intros a hv' w' _ Ho' Hh' -> _ _. eauto.
    - intros w' e Hw -> _ _. done.
  Qed.
  Lemma exact_push_back w al hdr xs R hv hf x v :
    heap_is w hv hf -> lists_own al ((hdr, xs) :: R) hv -> w_err w = None -> arg_in ((hdr, xs) :: R) hf x v ->
    runs (lst_push_back cf (Lst al hdr) x) w (fun _ w' => (w_err w', w_orc w') = one_node cf (w_orc w) /\
      match w_err w' with
      | None => exists a hv', lists_own al ((hdr, xs ++ [(a, v)]) :: R) hv' /\ heap_is w' hv' hf
      | Some _ => w_heap w' = w_heap w
      end).
  Proof.
    intros Hh Ho He Hx. eapply runs_mono; [eapply (runs_makes cf _ _ (fun _ w' => match w_err w' with
      | None => exists a hv', lists_own al ((hdr, xs ++ [(a, v)]) :: R) hv' /\ heap_is w' hv' hf
      | Some _ => w_heap w' = w_heap w end)); [apply makes_push_back|done|]|by intros a w' [? ?]].
    eapply runs_push_back; [done..| |].
    - intros a hv' w' _ Ho' Hh' -> _ _. eauto.
    - intros w' e Hw -> _ _. done.
  Qed.
  Lemma exact_push_front w al hdr xs R hv hf x v :
    heap_is w hv hf -> lists_own al ((hdr, xs) :: R) hv -> w_err w = None -> arg_in ((hdr, xs) :: R) hf x v ->
    runs (lst_push_front cf (Lst al hdr) x) w (fun _ w' => (w_err w', w_orc w') = one_node cf (w_orc w) /\
      match w_err w' with
      | None => exists a hv', lists_own al ((hdr, (a, v) :: xs) :: R) hv' /\ heap_is w' hv' hf
      | Some _ => w_heap w' = w_heap w
      end).
  Proof.
    intros Hh Ho He Hx. eapply runs_mono; [eapply (runs_makes cf _ _ (fun _ w' => match w_err w' with
      | None => exists a hv', lists_own al ((hdr, (a, v) :: xs) :: R) hv' /\ heap_is w' hv' hf
      | Some _ => w_heap w' = w_heap w end)); [apply makes_push_front|done|]|by intros a w' [? ?]].
    eapply runs_push_front; [done..| |].
    - intros a hv' w' _ Ho' Hh' -> _ _. eauto.
    - intros w' e Hw -> _ _. done.
  Qed.

  Lemma exact_insert_n n w al hdr l r R hv hf x v :
    heap_is w hv hf -> lists_own al ((hdr, l ++ r) :: R) hv -> w_err w = None -> arg_in ((hdr, l ++ r) :: R) hf x v ->
    runs (lst_insert_n cf (Lst al hdr) (hdx r.*1 hdr) n x) w (fun _ w' => exists k m hv',
      n_nodes cf n (w_orc w) = (k, w_err w', w_orc w') /\ m.*2 = replicate k v /\
      lists_own al ((hdr, l ++ m ++ r) :: R) hv' /\ heap_is w' hv' hf).
  Proof.
    revert w hv r. induction n as [|n IH]; intros w hv r Hh Ho He Hx; simpl.
    - apply runs_ret. exists 0, [], hv. by rewrite He.
    - rbind. eapply runs_mono; [by eapply exact_insert|]. simpl. intros a w1 [<- H1]. rbind. apply runs_has_err.
      destruct (w_err w1) as [e|] eqn:E1.
      + apply runs_ret. exists 0, [], hv. rewrite E1. split_and!; [done..|by eapply heap_is_eq].
      + destruct H1 as (hv1 & Ho1 & Hh1). eapply runs_mono; [eapply (IH w1 hv1 ((a, v) :: r)); try done|].
        * eapply arg_in_mono; [|exact Hx]. apply concat_cons_sub. intros p. set_solver.
        * simpl. intros [] w2 (k & m & hv2 & -> & Hm & Ho2 & Hh2). exists (S k), (m ++ [(a, v)]), hv2. split_and!; [done| | |done].
          -- rewrite fmap_app, Hm. simpl. by rewrite <-(replicate_cons_app k v).
          -- by rewrite <-(assoc_L (++)).
  Qed.
  Lemma exact_insert_range xs vs w al hdr l r R hv hf :
    heap_is w hv hf -> lists_own al ((hdr, l ++ r) :: R) hv -> w_err w = None ->
    Forall2 (arg_in ((hdr, l ++ r) :: R) hf) xs vs ->
    runs (lst_insert_range cf (Lst al hdr) (hdx r.*1 hdr) xs) w (fun _ w' => exists k m hv',
      n_nodes cf (length vs) (w_orc w) = (k, w_err w', w_orc w') /\ m.*2 = reverse (take k vs) /\
      lists_own al ((hdr, l ++ m ++ r) :: R) hv' /\ heap_is w' hv' hf).
  Proof.
    revert vs w hv r. induction xs as [|x xs IH]; intros vs w hv r Hh Ho He Hx; simpl.
    - apply Forall2_nil_inv_l in Hx as ->. apply runs_ret. exists 0, [], hv. by rewrite He.
    - apply Forall2_cons_inv_l in Hx as (v & vs' & Hx & Hxs & ->). simpl.
      rbind. eapply runs_mono; [by eapply exact_insert|]. simpl. intros a w1 [<- H1]. rbind. apply runs_has_err.
      destruct (w_err w1) as [e|] eqn:E1.
      + apply runs_ret. exists 0, [], hv. rewrite E1. split_and!; [done..|by eapply heap_is_eq].
      + destruct H1 as (hv1 & Ho1 & Hh1). eapply runs_mono; [eapply (IH vs' w1 hv1 ((a, v) :: r)); try done|].
        * eapply Forall2_impl; [exact Hxs|]. intros y u. apply arg_in_mono. apply concat_cons_sub. intros p. set_solver.
        * simpl. intros [] w2 (k & m & hv2 & -> & Hm & Ho2 & Hh2). exists (S k), (m ++ [(a, v)]), hv2. split_and!; [done| | |done].
          -- rewrite fmap_app, Hm. simpl. by rewrite reverse_cons.
          -- by rewrite <-(assoc_L (++)).
  Qed.
  Lemma exact_push_n n w al hdr xs R hv hf x v :
    heap_is w hv hf -> lists_own al ((hdr, xs) :: R) hv -> w_err w = None -> arg_in ((hdr, xs) :: R) hf x v ->
    runs (push_n_loop cf (Lst al hdr) n x) w (fun _ w' => exists k m hv',
      n_nodes cf n (w_orc w) = (k, w_err w', w_orc w') /\ m.*2 = replicate k v /\
      lists_own al ((hdr, xs ++ m) :: R) hv' /\ heap_is w' hv' hf).
  Proof.
    revert w hv xs. induction n as [|n IH]; intros w hv xs Hh Ho He Hx; simpl.
    - apply runs_ret. exists 0, [], hv. by rewrite He, app_nil_r.
    - rbind. eapply runs_mono; [by eapply exact_push_back|]. simpl. intros _ w1 [<- H1]. rbind. apply runs_has_err.
      destruct (w_err w1) as [e|] eqn:E1.
      + apply runs_ret. exists 0, [], hv. rewrite E1, app_nil_r. split_and!; [done..|by eapply heap_is_eq].
      + destruct H1 as (a & hv1 & Ho1 & Hh1). eapply runs_mono; [eapply (IH w1 hv1 (xs ++ [(a, v)])); try done|].
        * eapply arg_in_mono; [|exact Hx]. apply concat_cons_sub. intros p. set_solver.
        * simpl. intros [] w2 (k & m & hv2 & -> & Hm & Ho2 & Hh2). exists (S k), ((a, v) :: m), hv2. split_and!; [done| | |done].
          -- simpl. by f_equal.
          -- by rewrite <-(assoc_L (++)) in Ho2.
  Qed.
  Lemma exact_push_args ys vs w al hdr xs R hv hf :
    heap_is w hv hf -> lists_own al ((hdr, xs) :: R) hv -> w_err w = None ->
    Forall2 (arg_in ((hdr, xs) :: R) hf) ys vs ->
    runs (push_args_loop cf (Lst al hdr) ys) w (fun _ w' => exists k m hv',
      n_nodes cf (length vs) (w_orc w) = (k, w_err w', w_orc w') /\ m.*2 = take k vs /\
      lists_own al ((hdr, xs ++ m) :: R) hv' /\ heap_is w' hv' hf).
  Proof.
    revert vs w hv xs. induction ys as [|y ys IH]; intros vs w hv xs Hh Ho He Hx; simpl.
    - apply Forall2_nil_inv_l in Hx as ->. apply runs_ret. exists 0, [], hv. by rewrite He, app_nil_r.
    - apply Forall2_cons_inv_l in Hx as (v & vs' & Hx & Hxs & ->). simpl.
      rbind. eapply runs_mono; [by eapply exact_push_back|]. simpl. intros _ w1 [<- H1]. rbind. apply runs_has_err.
      destruct (w_err w1) as [e|] eqn:E1.
      + apply runs_ret. exists 0, [], hv. rewrite E1, app_nil_r. split_and!; [done..|by eapply heap_is_eq].
      + destruct H1 as (a & hv1 & Ho1 & Hh1). eapply runs_mono; [eapply (IH vs' w1 hv1 (xs ++ [(a, v)])); try done|].
        * eapply Forall2_impl; [exact Hxs|]. intros z u. apply arg_in_mono. apply concat_cons_sub. intros p. set_solver.
        * simpl. intros [] w2 (k & m & hv2 & -> & Hm & Ho2 & Hh2). exists (S k), ((a, v) :: m), hv2. split_and!; [done| | |done].
          -- simpl. by f_equal.
          -- by rewrite <-(assoc_L (++)) in Ho2.
  Qed.
  Lemma exact_push_nodes fuel w al hdr xs ht a m b R hv hf last :
    heap_is w hv hf -> lists_own al ((hdr, xs) :: (ht, a ++ m ++ b) :: R) hv -> w_err w = None ->
    length m < fuel -> last = hdx b.*1 ht ->
    runs (push_nodes_loop cf fuel (Lst al hdr) (hdx (m ++ b).*1 ht) last) w (fun _ w' => exists k m' hv',
      n_nodes cf (length m) (w_orc w) = (k, w_err w', w_orc w') /\ m'.*2 = take k m.*2 /\
      lists_own al ((hdr, xs ++ m') :: (ht, a ++ m ++ b) :: R) hv' /\ heap_is w' hv' hf).
  Proof.
    intros Hh Ho He Hf ->. revert w hv xs a m Hh Ho He Hf.
    induction fuel as [|fuel IH]; intros w hv xs a m Hh Ho He Hf; [lia|].
    assert (Ho2 : lists_own al ((ht, a ++ m ++ b) :: (hdr, xs) :: R) hv).
    { eapply own_perm; [|done]. apply perm_swap. }
    simpl. rbind. eapply runs_it_eq; [done|exact Ho2|apply hdx_in|rewrite (assoc_L (++)); apply hdx_in|].
    destruct m as [|[y v] m]; simpl.
    - rewrite bool_decide_true by done. apply runs_ret. exists 0, [], hv. by rewrite He, app_nil_r.
    - rewrite bool_decide_false.
      2: { destruct b as [|[z t] b]; simpl; [by eapply own_hdr_ne|].
           eapply (own_nodup_at _ _ a y v _ _ _ z t m); [exact Ho2|done]. }
      rbind. eapply runs_check_own; [done|exact Ho2|apply node_in|].
      rbind. eapply runs_mono; [eapply (exact_push_back _ _ _ _ _ _ _ _ v); [done|exact Ho|done|simpl; left; set_solver]|].
      simpl. intros _ w1 [<- H1]. rbind. apply runs_has_err. destruct (w_err w1) as [e|] eqn:E1.
      + apply runs_ret. exists 0, [], hv. rewrite E1, app_nil_r. split_and!; [done..|by eapply heap_is_eq].
      + destruct H1 as (c & hv1 & Ho1 & Hh1).
        assert (Ho2' : lists_own al ((ht, a ++ (y, v) :: m ++ b) :: (hdr, xs ++ [(c, v)]) :: R) hv1).
        { eapply own_perm; [|exact Ho1]. apply perm_swap. }
        rbind. eapply runs_it_inc; [done|exact Ho2'|].
        eapply runs_mono; [eapply (IH w1 hv1 (xs ++ [(c, v)]) (a ++ [(y, v)]) m); try done|].
        * by rewrite <-(assoc_L (++) a).
        * simpl in Hf. lia.
        * simpl. intros [] w2 (k & m' & hv2 & -> & Hm & Ho3 & Hh2). rewrite <-(assoc_L (++) a) in Ho3. simpl in Ho3.
          exists (S k), ((c, v) :: m'), hv2. split_and!; [done| | |done].
          -- simpl. by f_equal.
          -- by rewrite <-(assoc_L (++)) in Ho3.
  Qed.

  (** ** Assignment *)

  Lemma runs_with_orc {A} (m : M (lcell V) A) w (Q : A -> W -> Prop) : silent m -> runs m w Q ->
    runs m w (fun a w' => Q a w' /\ w_err w' = w_err w /\ w_orc w' = w_orc w).
  Proof. intros Hm (a & w' & Hr & HQ). exists a, w'. split; [done|]. split; [done|]. by destruct (Hm _ _ _ Hr) as (? & ? & _). Qed.

  Lemma exact_new_swap w al hdr xs R hv hf (Q : lst_obj -> W -> Prop) :
    heap_is w hv hf -> lists_own al ((hdr, xs) :: R) hv ->
    (forall t hv' w', lists_own al ((hdr, []) :: (t, xs) :: R) hv' -> heap_is w' hv' hf -> w_err w' = w_err w -> w_orc w' = w_orc w ->
       Q (Lst (c_dflt cf) t) w') ->
    runs (let! tmp := lst_new cf (c_dflt cf) in do! lst_swap cf tmp (Lst al hdr) in ret tmp) w Q.
  Proof.
    intros Hh Ho HQ. eapply runs_mono.
    - apply (runs_with_orc _ _ (fun o w' => exists t hv', o = Lst (c_dflt cf) t /\ lists_own al ((hdr, []) :: (t, xs) :: R) hv' /\ heap_is w' hv' hf)); [sh|].
      rbind. eapply runs_lst_new; [done..|]. intros t hv1 _ Ho1 Hh1. rbind.
      eapply (runs_lst_swap cf _ al t [] hdr xs); [done..|]. intros hv2 Ho2 Hh2. apply runs_ret.
      exists t, hv2. split_and!; [done| |done]. eapply own_perm; [|exact Ho2]. apply perm_swap.
    - intros o w' ((t & hv' & -> & Ho' & Hh') & He & Hw). by eapply HQ.
  Qed.
  Lemma exact_drop w al al0 t xs ls hv hf (Q : unit -> W -> Prop) :
    heap_is w hv hf -> lists_own al ((t, xs) :: ls) hv -> al0 = al \/ xs = [] ->
    (forall hv' w', lists_own al ls hv' -> heap_is w' hv' hf -> w_err w' = w_err w -> w_orc w' = w_orc w -> Q tt w') ->
    runs (lst_destroy (Lst al0 t)) w Q.
  Proof.
    intros Hh Ho Hal HQ. eapply runs_mono.
    - apply (runs_with_orc _ _ (fun _ w' => exists hv', lists_own al ls hv' /\ heap_is w' hv' hf)); [sh|].
      eapply runs_drop_tmp0; [done..|]. eauto.
    - intros [] w' ((hv' & Ho' & Hh') & He & Hw). by eapply HQ.
  Qed.

  Lemma bind_swap_assoc {A} al hdr (k : lst_obj -> M (lcell V) A) w Q :
    runs (let! o := (let! tmp := lst_new cf (c_dflt cf) in do! lst_swap cf tmp (Lst al hdr) in ret tmp) in k o) w Q ->
    runs (let! tmp := lst_new cf (c_dflt cf) in do! lst_swap cf tmp (Lst al hdr) in k tmp) w Q.
  Proof.
    intros (a & w' & Hr & HQ). exists a, w'. split; [|done]. revert Hr. unfold bind. destruct (lst_new cf (c_dflt cf) w) as [t w1|]; [|done].
    by destruct (lst_swap cf t (Lst al hdr) w1).
  Qed.

  Lemma exact_assign_n n w al hdr xs R hv hf x v :
    heap_is w hv hf -> lists_own al ((hdr, xs) :: R) hv -> w_err w = None -> arg_in ((hdr, xs) :: R) hf x v ->
    c_dflt cf = al \/ xs = [] ->
    runs (lst_assign_n cf (Lst al hdr) n x) w (fun _ w' => exists k m hv',
      n_nodes cf n (w_orc w) = (k, w_err w', w_orc w') /\ m.*2 = replicate k v /\
      lists_own al ((hdr, m) :: R) hv' /\ heap_is w' hv' hf).
  Proof.
    intros Hh Ho He Hx Hal. unfold lst_assign_n. apply bind_swap_assoc. rbind. eapply exact_new_swap; [done..|].
    intros t hv1 w1 Ho1 Hh1 He1 <-. rbind.
    eapply runs_mono; [eapply (exact_push_n n _ al hdr [] ((t, xs) :: R)); [done|done|congruence|]|].
    { eapply arg_in_mono; [|exact Hx]. done. }
    simpl. intros [] w2 (k & m & hv2 & Hn & Hm & Ho2 & Hh2).
    eapply (exact_drop _ al _ t xs ((hdr, m) :: R)); [exact Hh2|eapply own_perm; [|exact Ho2]; apply perm_swap|exact Hal|].
    intros hv3 w3 Ho3 Hh3 He3 Hw3. exists k, m, hv3. by rewrite He3, Hw3.
  Qed.
  Lemma exact_assign_args ys vs w al hdr xs R hv hf :
    heap_is w hv hf -> lists_own al ((hdr, xs) :: R) hv -> w_err w = None -> Forall2 (arg_in ((hdr, xs) :: R) hf) ys vs ->
    c_dflt cf = al \/ xs = [] ->
    runs (lst_assign_args cf (Lst al hdr) ys) w (fun _ w' => exists k m hv',
      n_nodes cf (length vs) (w_orc w) = (k, w_err w', w_orc w') /\ m.*2 = take k vs /\
      lists_own al ((hdr, m) :: R) hv' /\ heap_is w' hv' hf).
  Proof.
    intros Hh Ho He Hx Hal. unfold lst_assign_args. apply bind_swap_assoc. rbind. eapply exact_new_swap; [done..|].
    intros t hv1 w1 Ho1 Hh1 He1 <-. rbind.
    eapply runs_mono; [eapply (exact_push_args ys vs _ al hdr [] ((t, xs) :: R)); [done|done|congruence|]|].
    { eapply Forall2_impl; [exact Hx|]. intros y u. apply arg_in_mono. done. }
    simpl. intros [] w2 (k & m & hv2 & Hn & Hm & Ho2 & Hh2).
    eapply (exact_drop _ al _ t xs ((hdr, m) :: R)); [exact Hh2|eapply own_perm; [|exact Ho2]; apply perm_swap|exact Hal|].
    intros hv3 w3 Ho3 Hh3 He3 Hw3. exists k, m, hv3. by rewrite He3, Hw3.
  Qed.
  Lemma exact_copy w al hdr xs h2 ys R hv hf al2 :
    heap_is w hv hf -> lists_own al ((hdr, xs) :: (h2, ys) :: R) hv -> w_err w = None ->
    c_dflt cf = al \/ xs = [] ->
    runs (lst_copy cf (Lst al hdr) (Lst al2 h2)) w (fun _ w' => exists k m hv',
      n_nodes cf (length ys) (w_orc w) = (k, w_err w', w_orc w') /\ m.*2 = take k ys.*2 /\
      lists_own al ((hdr, m) :: (h2, ys) :: R) hv' /\ heap_is w' hv' hf).
  Proof.
    intros Hh Ho He Hal.
    assert (Ho2 : lists_own al ((h2, ys) :: (hdr, xs) :: R) hv).
    { eapply own_perm; [|done]. apply perm_swap. }
    unfold lst_copy. rbind. eapply runs_begin; [done|exact Ho2|]. rbind. eapply runs_end; [done|exact Ho2|]. clear Ho2.
    unfold lst_assign_nodes. apply bind_swap_assoc. rbind. eapply exact_new_swap; [done..|].
    intros t hv1 w1 Ho1 Hh1 He1 <-.
    assert (Ho1' : lists_own al ((hdr, []) :: (h2, ys) :: (t, xs) :: R) hv1) by (eapply own_perm; [|exact Ho1]; perm_solve).
    rbind. eapply runs_heap_fuel; [exact Hh1|exact Ho1'|]. intros fuel Hfu. rewrite list_addrs_cons in Hfu. simpl in Hfu.
    rewrite app_length, fmap_length in Hfu.
    pose proof (exact_push_nodes fuel w1 al hdr [] h2 [] ys [] ((t, xs) :: R) hv1 hf h2) as Hp. rewrite app_nil_r in Hp.
    rbind. eapply runs_mono; [apply Hp; [done|done|congruence|lia|done]|]. clear Hp.
    simpl. intros [] w2 (k & m & hv2 & Hn & Hm & Ho2 & Hh2).
    eapply (exact_drop _ al _ t xs ((hdr, m) :: (h2, ys) :: R)); [exact Hh2|eapply own_perm; [|exact Ho2]; perm_solve|exact Hal|].
    intros hv3 w3 Ho3 Hh3 He3 Hw3. exists k, m, hv3. by rewrite He3, Hw3.
  Qed.
End exact.
