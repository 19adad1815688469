(** * Ranges of any iterators: proofs *)
From Verif Require Export IterSpec VecOps.
From Verif Require Import AlgoProofs.

Section two.
  Context {C1 C2 : Type}.
  Implicit Types (w : world C1) (h : gmap addr C2).

  Lemma runs2_bind {A B} (m : M2 C1 C2 A) (k : A -> M2 C1 C2 B) w h Q :
    runs2 m w h (fun a w' => runs2 (k a) w' h Q) -> runs2 (bind2 m k) w h Q.
  Proof.
    intros (a & w' & Hm & b & w'' & Hk & HQ). exists b, w''. unfold bind2. by rewrite Hm, Hk.
  Qed.
  Lemma runs2_ret {A} (a : A) w h (Q : A -> world C1 -> Prop) : Q a w -> runs2 (ret2 a) w h Q.
  Proof. intros HQ. by exists a, w. Qed.
  Lemma runs2_here {A} (m : M C1 A) w h Q : runs m w Q -> runs2 (here m) w h Q.
  Proof. intros (a & w' & Hm & HQ). exists a, w'. unfold here. by rewrite Hm. Qed.
  Lemma runs2_there {A} (m : M C2 A) x w h (Q : A -> world C1 -> Prop) : returns h m x -> Q x w -> runs2 (there m) w h Q.
  Proof. intros Hm HQ. exists x, w. unfold there. by rewrite Hm. Qed.
  Lemma runs2_mono {A} (m : M2 C1 C2 A) w h (Q Q' : A -> world C1 -> Prop) :
    runs2 m w h Q -> (forall a w', Q a w' -> Q' a w') -> runs2 m w h Q'.
  Proof. intros (a & w' & Hm & HQ) H. exists a, w'. eauto. Qed.
End two.
Lemma returns_runs {C A} (h : gmap addr C) (m : M C A) x :
  (forall (w : world C) (Q : A -> world C -> Prop), w_heap w = h -> Q x w -> runs m w Q) -> returns h m x.
Proof.
  intros Hm w Hw. destruct (Hm w (fun a w' => a = x /\ w' = w) Hw) as (a & w' & Hd & -> & ->); done.
Qed.


(** ** Reverse iterators *)
Lemma rev_over {C V I} (it : iterator C V I) h pos vs :
  runs_over it h pos vs -> runs_over (rev_iter it) h (fun i => pos (length vs - i)) (reverse vs).
Proof.
  intros [Hne Hget Hinc Hdec Hdist]. split; rewrite ?reverse_length; simpl.
  - intros i j Hi Hj. erewrite bool_decide_ext; [apply Hne; lia|]. lia.
  - intros i x Hx. assert (i < length vs) as Hi by (rewrite <-reverse_length; by eapply lookup_lt_Some).
    rewrite reverse_lookup in Hx by done. intros w Hw. unfold bind.
    replace (length vs - i) with (S (length vs - S i)) by lia. rewrite (Hdec (length vs - S i)) by (try done; lia). by apply Hget.
  - intros i Hi. replace (length vs - i) with (S (length vs - S i)) by lia. apply Hdec. lia.
  - intros i Hi. replace (length vs - i) with (S (length vs - S i)) by lia. apply Hinc. lia.
  - intros d i j Hd Hij Hj. destruct (i_dist it) as [d0|] eqn:E; [|done]. injection Hd as <-.
    replace (j - i) with ((length vs - i) - (length vs - j)) by lia. apply (Hdist d0); [done|lia|lia].
Qed.

(** ** The loops do what they do for the values *)
Section loops.
  Context {C I V : Type} (cf : cfg V) (it : iterator C V I) (h : gmap addr C) (pos : nat -> I) (vs : list V).
  Hypothesis over : runs_over it h pos vs.

  Definition beside {C1 A} (o : out C1 A) : out2 A :=
    match o with Done a w => Done2 a w h | Fault f => Fault2 f end.

  Lemma there_ret {C1 A} (m : M C A) x (w : world C1) : returns h m x -> there m w h = Done2 x w h.
  Proof. intros Hm. unfold there. by rewrite Hm. Qed.
  Lemma slice_end i j : j <= i -> take (j - i) (drop i vs) = [].
  Proof. intros Hi. by replace (j - i) with 0 by lia. Qed.
  Lemma slice_at i j x : vs !! i = Some x -> i < j -> take (j - i) (drop i vs) = x :: take (j - S i) (drop (S i) vs).
  Proof. intros Hx Hij. rewrite (drop_S _ _ _ Hx). replace (j - i) with (S (j - S i)) by lia. done. Qed.

  Lemma vec_push_loop_eq fuel v i j w : i <= j -> j <= length vs -> j - i < fuel ->
    vec_push_loop cf it fuel v (pos i) (pos j) w h = beside (assign_input_loop cf v (AVal <$> take (j - i) (drop i vs)) w).
  Proof.
    revert v i w. induction fuel as [|fuel IH]; intros v i w Hi Hj Hf; [lia|]. cbn [vec_push_loop]. unfold bind2 at 1.
    rewrite (there_ret _ _ w (over_ne _ _ _ _ over i j ltac:(lia) Hj)).
    destruct (decide (i = j)) as [->|Hn].
    { rewrite bool_decide_eq_false_2, slice_end by lia. done. }
    rewrite bool_decide_eq_true_2 by done. destruct (lookup_lt_is_Some_2 vs i) as [x Hx]; [lia|].
    rewrite (slice_at i j x) by (done || lia). cbn [fmap list_fmap assign_input_loop].
    unfold bind2 at 1. rewrite (there_ret _ _ w (over_get _ _ _ _ over i x Hx)).
    unfold bind2 at 1, here at 1, bind at 1. destruct (vec_push_back cf v (AVal x) w) as [v' w'|]; [|done].
    unfold bind2 at 1, here at 1, bind at 1. destruct (has_err w') as [[] w''|]; [done| |done].
    unfold bind2 at 1. rewrite (there_ret _ _ w'' (over_inc _ _ _ _ over i ltac:(lia))). apply IH; lia.
  Qed.
  Lemma lst_push_loop_eq fuel o i j w : i <= j -> j <= length vs -> j - i < fuel ->
    lst_push_loop cf it fuel o (pos i) (pos j) w h = beside (push_args_loop cf o (LAVal <$> take (j - i) (drop i vs)) w).
  Proof.
    revert i w. induction fuel as [|fuel IH]; intros i w Hi Hj Hf; [lia|]. cbn [lst_push_loop]. unfold bind2 at 1.
    rewrite (there_ret _ _ w (over_ne _ _ _ _ over i j ltac:(lia) Hj)).
    destruct (decide (i = j)) as [->|Hn].
    { rewrite bool_decide_eq_false_2, slice_end by lia. done. }
    rewrite bool_decide_eq_true_2 by done. destruct (lookup_lt_is_Some_2 vs i) as [x Hx]; [lia|].
    rewrite (slice_at i j x) by (done || lia). cbn [fmap list_fmap push_args_loop].
    unfold bind2 at 1. rewrite (there_ret _ _ w (over_get _ _ _ _ over i x Hx)).
    unfold bind2 at 1, here at 1, bind at 1. destruct (lst_push_back cf o (LAVal x) w) as [v' w'|]; [|done].
    unfold bind2 at 1, here at 1, bind at 1. destruct (has_err w') as [[] w''|]; [done| |done].
    unfold bind2 at 1. rewrite (there_ret _ _ w'' (over_inc _ _ _ _ over i ltac:(lia))). apply IH; lia.
  Qed.
  Lemma lst_assign_it_eq fuel o i j w : i <= j -> j <= length vs -> j - i < fuel ->
    lst_assign_it cf it fuel o (pos i) (pos j) w h = beside (lst_assign_args cf o (LAVal <$> take (j - i) (drop i vs)) w).
  Proof.
    intros Hi Hj Hf. unfold lst_assign_it, lst_assign_args, bind2, here, bind.
    destruct (lst_new cf (c_dflt cf) w) as [tmp w1|]; [|done]. destruct (lst_swap cf tmp o w1) as [? w2|]; [|done].
    rewrite (lst_push_loop_eq fuel o i j w2) by done. destruct (push_args_loop _ _ _ w2); done.
  Qed.
  Lemma lst_insert_it_eq fuel o p i j w : i <= j -> j <= length vs -> j - i < fuel ->
    lst_insert_it cf it fuel o p (pos i) (pos j) w h = beside (lst_insert_range cf o p (LAVal <$> take (j - i) (drop i vs)) w).
  Proof.
    revert i p w. induction fuel as [|fuel IH]; intros i p w Hi Hj Hf; [lia|]. cbn [lst_insert_it]. unfold bind2 at 1.
    rewrite (there_ret _ _ w (over_ne _ _ _ _ over i j ltac:(lia) Hj)).
    destruct (decide (i = j)) as [->|Hn].
    { rewrite bool_decide_eq_false_2, slice_end by lia. done. }
    rewrite bool_decide_eq_true_2 by done. destruct (lookup_lt_is_Some_2 vs i) as [x Hx]; [lia|].
    rewrite (slice_at i j x) by (done || lia). cbn [fmap list_fmap lst_insert_range].
    unfold bind2 at 1. rewrite (there_ret _ _ w (over_get _ _ _ _ over i x Hx)).
    unfold bind2 at 1, here at 1, bind at 1. destruct (lst_insert cf o p (LAVal x) w) as [v' w'|]; [|done].
    unfold bind2 at 1, here at 1, bind at 1. destruct (has_err w') as [[] w''|]; [done| |done].
    unfold bind2 at 1. rewrite (there_ret _ _ w'' (over_inc _ _ _ _ over i ltac:(lia))). apply IH; lia.
  Qed.
  Lemma tree_insert_it_eq comp fuel o i j w : i <= j -> j <= length vs -> j - i < fuel ->
    tree_insert_it cf it comp fuel o (pos i) (pos j) w h = beside (insert_unique_range cf comp o (TAVal <$> take (j - i) (drop i vs)) w).
  Proof.
    revert i w. induction fuel as [|fuel IH]; intros i w Hi Hj Hf; [lia|]. cbn [tree_insert_it]. unfold bind2 at 1.
    rewrite (there_ret _ _ w (over_ne _ _ _ _ over i j ltac:(lia) Hj)).
    destruct (decide (i = j)) as [->|Hn].
    { rewrite bool_decide_eq_false_2, slice_end by lia. done. }
    rewrite bool_decide_eq_true_2 by done. destruct (lookup_lt_is_Some_2 vs i) as [x Hx]; [lia|].
    rewrite (slice_at i j x) by (done || lia). cbn [fmap list_fmap insert_unique_range].
    unfold bind2 at 1. rewrite (there_ret _ _ w (over_get _ _ _ _ over i x Hx)).
    unfold bind2 at 1, here at 1, bind at 1. destruct (insert_unique_at cf comp o (t_end o) (TAVal x) w) as [v' w'|]; [|done].
    unfold bind2 at 1, here at 1, bind at 1. destruct (has_err w') as [[] w''|]; [done| |done].
    unfold bind2 at 1. rewrite (there_ret _ _ w'' (over_inc _ _ _ _ over i ltac:(lia))). apply IH; lia.
  Qed.
  Lemma runs2_beside {C1 A} (m : M2 C1 C A) (m' : M C1 A) w (Q : A -> world C1 -> Prop) :
    m w h = beside (m' w) -> runs m' w Q -> runs2 m w h Q.
  Proof. intros Hm (a & w' & Hd & HQ). exists a, w'. by rewrite Hm, Hd. Qed.

  Lemma runs_vec_assign_it fuel v l cap hv hf i j w (Q : _ -> world (vblock V) -> Prop) :
    cfg_ok cf -> vec_owns cf v l cap hv -> heap_is w hv hf -> w_err w = None ->
    i <= j -> j <= length vs -> j - i < fuel ->
    (i_dist it <> None -> (N.of_nat (j - i) * c_sizeof cf < 2^64)%N) ->
    (forall v' cap' hv' w' k, k <= j - i ->
       vec_owns cf v' (take k (drop i vs)) cap' hv' -> heap_is w' hv' hf ->
       ((w_err w' = None /\ k = j - i) \/ (exists e, w_err w' = Some e /\ (k < j - i \/ j = i /\ i_dist it <> None))) -> Q v' w') ->
    runs2 (vec_assign_it cf it fuel v (pos i) (pos j)) w h Q.
  Proof.
    intros Hcf Ho [Hw Hd] He Hij Hj Hfuel Hb HQ. unfold vec_assign_it. rewrite vec_swap_new.
    apply runs2_bind, runs2_here, runs_assert; [done|]. apply runs2_bind.
    assert (Hxs : length (take (j - i) (drop i vs)) = j - i) by (rewrite take_length, drop_length; lia).
    assert (Hloop : forall v0 hv0 cap0 w0, vec_owns cf v0 [] cap0 hv0 -> heap_is w0 hv0 (hv ∪ hf) -> w_err w0 = None ->
      runs2 (vec_push_loop cf it fuel v0 (pos i) (pos j)) w0 h (fun v0 w' => runs2 (do2 here (vec_destroy v) in ret2 v0) w' h Q)).
    { intros v0 hv0 cap0 w0 Ho0 Hh0 He0. eapply runs2_beside; [by apply vec_push_loop_eq|].
      eapply (runs_assign_input_loop cf _ (take (j - i) (drop i vs))); try done.
      { apply Forall2_fmap_l, Forall_Forall2_diag, Forall_forall. done. }
      intros v'' cap'' hv'' w'' k Hal'' Hk Ho'' Hh'' Hcase. rewrite Hxs in *.
      apply runs2_bind, runs2_here. eapply runs_destroy_tmp; try done. intros w3 Hh3 He3 _ _ _. apply runs2_ret.
      eapply (HQ _ _ _ _ k); try done.
      - simpl in Ho''. rewrite take_take, Nat.min_l in Ho'' by lia. done.
      - rewrite He3. destruct Hcase as [?|(e & ? & ?)]; [by left|right; eauto]. }
    destruct (i_dist it) as [d|] eqn:Ed.
    - apply runs2_bind. eapply runs2_there; [by eapply over_dist|]. apply runs2_bind, runs2_here.
      eapply runs_grow with (hf := hv ∪ hf); try done.
      + by apply owns_new.
      + by apply heap_is_empty.
      + by apply Hb.
      + right. unfold fits. lia.
      + intros v' b hv' w' Hs' Hal' Hfresh Ho' Hh' He' Hna.
        apply runs2_bind, runs2_here, runs_has_err. rewrite He'.
        apply runs2_bind, runs2_here, runs_assert.
        { destruct Ho' as [(?&?&_)|(? & E1 & E2 & _)]; unfold vec_empty; apply bool_decide_eq_true; simpl in *; congruence. }
        by eapply Hloop.
      + intros w' e Hhe He' Hna. apply runs2_bind, runs2_here, runs_has_err. rewrite He'. apply runs2_ret.
        apply runs2_bind, runs2_here. eapply runs_destroy_tmp; try done.
        { apply heap_is_empty. by rewrite Hhe. }
        intros w3 Hh3 He3 _ _ _. apply runs2_ret. eapply (HQ _ _ _ _ 0); try done.
        * lia.
        * by apply owns_new.
        * rewrite He3. right. exists e. split; [done|]. assert (0 < j - i \/ j = i) as [?| ->] by lia; [by left|right; done].
    - eapply Hloop; [by apply owns_new|by apply heap_is_empty|done].
  Qed.
End loops.

(** ** Algorithms *)
Section copying.
  Context {C I V : Type} (cf : cfg V) (torn : nat -> V -> V -> V) (it : iterator C V I) (h : gmap addr C) (pos : nat -> I) (vs : list V).
  Hypothesis over : runs_over it h pos vs.
  Notation W := (world (vblock V)).
  Implicit Types w : W.

  Lemma runs_assign_val w x bd j y m (Q : _ -> W -> Prop) :
    (exists blk, w_heap w !! bd = Some blk /\ j + S m <= b_room blk) -> slot (w_heap w) bd j = Some y ->
    w_err w = None ->
    (forall w', w_heap w' = ow (w_heap w) bd j x -> w_err w' = None -> Q tt w') ->
    (forall w' z code, c_kind cf <> Nothrow -> w_heap w' = ow (w_heap w) bd j z -> w_err w' = Some (EElem code) -> Q tt w') ->
    runs (assign_val cf torn (Ptr bd j) x) w Q.
  Proof.
    intros Hrd Hsd He Hok Hfail. unfold assign_val.
    assert (Hev : c_kind cf <> Nothrow ->
      runs (let! ev := next_event in
            match ev with
            | EvOk _ => overwrite (Ptr bd j) x
            | EvFail code =>
                let! old := read (Ptr bd j) in
                do! overwrite (Ptr bd j) (torn code old x) in
                put_err (Some (EElem code))
            end) w Q).
    { intros Hk. rbind. apply runs_next_event. intros ev o. destruct ev as [code|hint].
      - rbind. eapply runs_read_slot; [done..|]. rbind. eapply runs_overwrite_slot; [done..|]. apply runs_put_err.
        by eapply Hfail.
      - eapply runs_overwrite_slot; [done..|]. by apply Hok. }
    destruct (c_kind cf) eqn:Hk; [|by apply Hev..].
    eapply runs_overwrite_slot; [done..|]. by apply Hok.
  Qed.

  Lemma runs_copy_if_it pred fuel i j bd d h0 D w (Q : _ -> W -> Prop) :
    let R := List.filter pred (take (j - i) (drop i vs)) in
    i <= j -> j <= length vs -> j - i < fuel -> w_err w = None ->
    (exists blk, h0 !! bd = Some blk /\ d + length (D ++ R) <= b_room blk) ->
    (forall k, k < length (D ++ R) -> is_Some (slot h0 bd (d + k))) ->
    stored h0 (w_heap w) bd d D ->
    (forall w', stored h0 (w_heap w') bd d (D ++ R) -> w_err w' = None -> Q (Ptr bd (d + length (D ++ R))) w') ->
    (forall w' k x code, k < length (D ++ R) -> c_kind cf <> Nothrow -> w_err w' = Some (EElem code) ->
       stored h0 (w_heap w') bd d (take k (D ++ R) ++ [x]) -> Q (Ptr bd (d + k)) w') ->
    runs2 (copy_if_it cf it torn pred fuel (pos i) (pos j) (Ptr bd (d + length D))) w h Q.
  Proof.
    revert i w D. induction fuel as [|fuel IH]; intros i w D R Hi Hj Hf He Hrd Hlive Hst Hok Hfail; [lia|]. cbn [copy_if_it].
    apply runs2_bind. eapply runs2_there; [apply (over_ne _ _ _ _ over i j ltac:(lia) Hj)|].
    destruct (decide (i = j)) as [->|Hn].
    { unfold R in *. rewrite bool_decide_eq_false_2, slice_end in * by lia. simpl in *. rewrite app_nil_r in *. apply runs2_ret. by apply Hok. }
    rewrite bool_decide_eq_true_2 by done. destruct (lookup_lt_is_Some_2 vs i) as [x Hx]; [lia|].
    unfold R in *. rewrite (slice_at vs i j x) in * by (done || lia). cbn [List.filter] in *. clear R.
    apply runs2_bind. eapply runs2_there; [apply (over_get _ _ _ _ over i x Hx)|]. destruct (pred x).
    - apply runs2_bind. eapply runs2_there; [apply (over_get _ _ _ _ over i x Hx)|]. apply runs2_bind, runs2_here.
      assert (Hlt : length D < length (D ++ x :: List.filter pred (take (j - S i) (drop (S i) vs)))) by (rewrite app_length; simpl; lia).
      destruct (Hlive _ Hlt) as [y Hy]. pose proof Hst as [Hsh Hsl].
      assert (Hrd' : exists blk, w_heap w !! bd = Some blk /\ d + length D + S (length (List.filter pred (take (j - S i) (drop (S i) vs)))) <= b_room blk).
      { eapply room_same; [done|]. destruct Hrd as (blk & ? & Hr). exists blk. split; [done|]. rewrite app_length in Hr. simpl in Hr. lia. }
      eapply (runs_assign_val w x bd (d + length D) y); [exact Hrd'| |done| |].
      { rewrite Hsl, decide_False by lia. done. }
      + intros w' Hw' He'. apply runs2_bind, runs2_here, runs_has_err. rewrite He'. apply runs2_bind, runs2_here. eapply runs_padd_room.
        { eapply room_same; [|exact Hrd']. rewrite Hw'. apply blocks_ow. }
        apply runs2_bind. eapply runs2_there; [apply (over_inc _ _ _ _ over i); lia|].
        replace (S (d + length D)) with (d + length (D ++ [x])) by (rewrite app_length; simpl; lia).
        set (T := List.filter pred (take (j - S i) (drop (S i) vs))) in *.
        assert (Happ : D ++ x :: T = (D ++ [x]) ++ T) by (by rewrite <-(assoc_L (++))).
        rewrite Happ in Hrd, Hlive, Hok, Hfail. apply IH; try done; try lia.
        rewrite Hw'. apply stored_snoc; [exact torn|done|by exists y].
      + intros w' z code Hk Hw' He'. apply runs2_bind, runs2_here, runs_has_err. rewrite He'. apply runs2_ret.
        eapply (Hfail _ _ z code); [exact Hlt|done|done|]. rewrite take_app, Hw'. apply stored_snoc; [exact torn|done|by exists y].
    - apply runs2_bind. eapply runs2_there; [apply (over_inc _ _ _ _ over i); lia|]. apply IH; try done; try lia.
  Qed.
  Lemma copy_it_if fuel i j d w : i <= j -> j <= length vs -> j - i < fuel ->
    copy_it cf it torn fuel (pos i) (pos j) d w h = copy_if_it cf it torn (fun _ => true) fuel (pos i) (pos j) d w h.
  Proof.
    revert i d w. induction fuel as [|fuel IH]; intros i d w Hi Hj Hf; [lia|]. cbn [copy_it copy_if_it]. unfold bind2 at 1.
    symmetry. unfold bind2 at 1. symmetry. rewrite (there_ret h _ _ w (over_ne _ _ _ _ over i j ltac:(lia) Hj)).
    destruct (decide (i = j)) as [->|Hn]; [by rewrite bool_decide_eq_false_2 by lia|].
    rewrite bool_decide_eq_true_2 by done. destruct (lookup_lt_is_Some_2 vs i) as [x Hx]; [lia|]. unfold bind2.
    repeat rewrite (there_ret h _ _ w (over_get _ _ _ _ over i x Hx)).
    destruct (here _ w h) as [? w1 h1|] eqn:E; [|done].
    assert (h1 = h) as ->. { unfold here in E. destruct (assign_val cf torn d x w); by simplify_eq. }
    destruct (here has_err w1 h) as [[] w2 h2|] eqn:E2; [done| |done].
    assert (h2 = h) as ->. { unfold here in E2. destruct (has_err w1); by simplify_eq. }
    destruct (here (padd d 1) w2 h) as [d' w3 h3|] eqn:E3; [|done].
    assert (h3 = h) as ->. { unfold here in E3. destruct (padd d 1 w2); by simplify_eq. }
    rewrite (there_ret h _ _ w3 (over_inc _ _ _ _ over i ltac:(lia))). apply IH; lia.
  Qed.
End copying.

Section comparing.
  Context {C1 C2 I1 I2 V : Type} (it1 : iterator C1 V I1) (it2 : iterator C2 V I2).
  Context (w : world C1) (h : gmap addr C2) (p1 : nat -> I1) (p2 : nat -> I2) (l r : list V).
  Hypothesis (over1 : runs_over it1 (w_heap w) p1 l) (over2 : runs_over it2 h p2 r).

  Lemma runs2_here_ret {A} (m : M C1 A) x (Q : A -> world C1 -> Prop) : returns (w_heap w) m x -> Q x w -> runs2 (here m) w h Q.
  Proof. intros Hm HQ. apply runs2_here. exists x, w. by rewrite Hm. Qed.

  Lemma runs_equal_it p fuel i1 j1 i2 (Q : bool -> world C1 -> Prop) :
    i1 <= j1 -> j1 <= length l -> i2 + (j1 - i1) <= length r -> j1 - i1 < fuel ->
    Q (forallb (fun xy => p xy.1 xy.2) (zip (take (j1 - i1) (drop i1 l)) (take (j1 - i1) (drop i2 r)))) w ->
    runs2 (equal_it it1 it2 p fuel (p1 i1) (p1 j1) (p2 i2)) w h Q.
  Proof.
    revert i1 i2. induction fuel as [|fuel IH]; intros i1 i2 Hi Hj Hr Hf HQ; [lia|]. cbn [equal_it].
    apply runs2_bind. eapply runs2_here_ret; [apply (over_ne _ _ _ _ over1 i1 j1 ltac:(lia) Hj)|].
    destruct (decide (i1 = j1)) as [->|Hn].
    { rewrite bool_decide_eq_false_2 by lia. rewrite (slice_end l) in HQ by lia. by apply runs2_ret. }
    rewrite bool_decide_eq_true_2 by done. destruct (lookup_lt_is_Some_2 l i1) as [x Hx]; [lia|]. destruct (lookup_lt_is_Some_2 r i2) as [y Hy]; [lia|].
    rewrite (slice_at l i1 j1 x) in HQ by (done || lia). replace (j1 - i1) with (S (j1 - S i1)) in HQ by lia. rewrite (drop_S r _ _ Hy) in HQ. simpl in HQ.
    apply runs2_bind. eapply runs2_here_ret; [apply (over_get _ _ _ _ over1 _ _ Hx)|].
    apply runs2_bind. eapply runs2_there; [apply (over_get _ _ _ _ over2 _ _ Hy)|].
    destruct (p x y); [|by apply runs2_ret].
    apply runs2_bind. eapply runs2_here_ret; [apply (over_inc _ _ _ _ over1 i1); lia|].
    apply runs2_bind. eapply runs2_there; [apply (over_inc _ _ _ _ over2 i2); lia|].
    apply IH; try lia. done.
  Qed.
  Lemma runs_lex_it comp fuel i1 j1 i2 j2 (Q : bool -> world C1 -> Prop) :
    i1 <= j1 -> j1 <= length l -> i2 <= j2 -> j2 <= length r -> j1 - i1 < fuel ->
    Q (lexb comp (take (j1 - i1) (drop i1 l)) (take (j2 - i2) (drop i2 r))) w ->
    runs2 (lex_it it1 it2 comp fuel (p1 i1) (p1 j1) (p2 i2) (p2 j2)) w h Q.
  Proof.
    revert i1 i2. induction fuel as [|fuel IH]; intros i1 i2 Hi Hj Hi2 Hj2 Hf HQ; [lia|]. cbn [lex_it].
    assert (Hne1 : returns (w_heap w) (i_ne it1 (p1 i1) (p1 j1)) (bool_decide (i1 <> j1))) by (apply (over_ne _ _ _ _ over1); lia).
    assert (Hne2 : returns h (i_ne it2 (p2 i2) (p2 j2)) (bool_decide (i2 <> j2))) by (apply (over_ne _ _ _ _ over2); lia).
    apply runs2_bind. eapply runs2_here_ret; [exact Hne1|].
    destruct (decide (i1 = j1)) as [->|Hn1].
    { rewrite slice_end in HQ by lia. rewrite bool_decide_eq_false_2 by lia. apply runs2_bind, runs2_ret.
      apply runs2_bind. eapply runs2_here_ret; [exact Hne1|]. rewrite bool_decide_eq_false_2 by lia.
      eapply runs2_there; [exact Hne2|]. destruct (decide (i2 = j2)) as [->|Hn2].
      - rewrite slice_end in HQ by lia. by rewrite bool_decide_eq_false_2 by lia.
      - rewrite bool_decide_eq_true_2 by done. destruct (lookup_lt_is_Some_2 r i2) as [y Hy]; [lia|].
        by rewrite (slice_at r i2 j2 y) in HQ by (done || lia). }
    rewrite bool_decide_eq_true_2 by done. apply runs2_bind. eapply runs2_there; [exact Hne2|].
    destruct (lookup_lt_is_Some_2 l i1) as [x Hx]; [lia|]. rewrite (slice_at l i1 j1 x) in HQ by (done || lia).
    destruct (decide (i2 = j2)) as [->|Hn2].
    { rewrite bool_decide_eq_false_2 by lia. rewrite (slice_end r) in HQ by lia.
      apply runs2_bind. eapply runs2_here_ret; [exact Hne1|]. rewrite bool_decide_eq_true_2 by done. by apply runs2_ret. }
    rewrite bool_decide_eq_true_2 by done. destruct (lookup_lt_is_Some_2 r i2) as [y Hy]; [lia|].
    rewrite (slice_at r i2 j2 y) in HQ by (done || lia). simpl in HQ.
    apply runs2_bind. eapply runs2_here_ret; [apply (over_get _ _ _ _ over1 _ _ Hx)|].
    apply runs2_bind. eapply runs2_there; [apply (over_get _ _ _ _ over2 _ _ Hy)|].
    destruct (comp x y); [by apply runs2_ret|].
    apply runs2_bind. eapply runs2_there; [apply (over_get _ _ _ _ over2 _ _ Hy)|].
    apply runs2_bind. eapply runs2_here_ret; [apply (over_get _ _ _ _ over1 _ _ Hx)|].
    destruct (comp y x); [by apply runs2_ret|].
    apply runs2_bind. eapply runs2_here_ret; [apply (over_inc _ _ _ _ over1 i1); lia|].
    apply runs2_bind. eapply runs2_there; [apply (over_inc _ _ _ _ over2 i2); lia|].
    apply IH; try lia. done.
  Qed.
End comparing.

(** ** The iterators of the containers *)
Lemma array_over {V} (h : gmap addr (vblock V)) b o vs : objs h b o vs -> runs_over ptr_iter h (fun i => Ptr b (o + i)) vs.
Proof.
  intros [(blk & Hb & Hr) Hv]. split; simpl.
  - intros i j Hi Hj w Hw. unfold ret. do 2 f_equal. apply bool_decide_ext. split; intros Hn ?; apply Hn; simplify_eq; lia.
  - intros i x Hx. apply returns_runs. intros w Q Hw HQ. eapply (runs_read_slot w b (o + i) x 0); [| |done].
    + exists blk. rewrite Hw. split; [done|]. apply lookup_lt_Some in Hx. lia.
    + rewrite Hw. by apply Hv.
  - intros i Hi. apply returns_runs. intros w Q Hw HQ. eapply (runs_padd_room w b (o + i) 0).
    + exists blk. rewrite Hw. split; [done|]. lia.
    + by replace (S (o + i)) with (o + S i) by lia.
  - intros i Hi w _. by replace (o + S i) with (S (o + i)) by lia.
  - intros d i j Hd Hij Hj w _. injection Hd as <-. unfold pdiff. rewrite decide_True by lia. unfold ret. f_equal. lia.
Qed.
