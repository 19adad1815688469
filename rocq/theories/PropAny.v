(** * Property C68: a wrong comparison function cannot damage a tree

    Stated over the models RbModel.v and RbMultiModel.v with the vocabulary of
    RbAnySpec.v.  No theorem in this file asks anything of [comp]: it may be
    non-transitive, reflexive or constant.  [tree_is o xs hf w]: the heap of [w]
    consists of [hf] and of exactly the red-black tree [o], whose elements are,
    in the order of iteration, the pairs of [xs]. *)
From Verif Require Import RbExtra RbMulti RbAny RbHistSpec.
From Verif Require RbHist.

(** ** Concrete trees for the examples *)

Definition acD : cfg nat := Cfg true 8 (2^62) 0 Direct 0.
(** not an order at all: 1 < 2 < 3 < 1, and not irreflexive on 5 *)
Definition odd_comp (x y : nat) : bool := bool_decide (y mod 3 = (x + 1) mod 3) || bool_decide (x = 5).
Definition axT : tree nat :=
  Node Black 2 30 (Node Black 3 50 Leaf Leaf) (Node Black 4 5 (Node Red 5 20 Leaf Leaf) Leaf).
Definition axO : tset := TSet 0 1.
Definition axX : list (addr * nat) := elems axT.
Definition aw (orc : list event) : world (tcell nat) := World (set_heap_of 0 1 axT) orc None 0 0.
Lemma ax_is orc : tree_is axO axX ∅ (aw orc).
Proof. apply tree_is_mset. apply mset_is_set. apply (good_is (wk never)). by vm_compute. Qed.

(** ** One call *)

Section post.
  Context {V : Type} (cf : cfg V).
  Implicit Types xs : list (addr * V).
  Lemma grown_ok o xs ys hf (v : V) w a h' t' orc :
    one_more (a, v) xs ys -> w_heap w !! a = None -> sin (wk never) o ys h' hf t' ->
    grown o xs hf v w a (World h' orc None (S (w_allocs w)) (S (w_ctors w))).
  Proof. intros Hm Ha Hs. split_and!; [done..|]. exists ys. split; [done|]. apply tree_is_sin. by exists t'. Qed.
End post.

Theorem C68_insert V (cf : cfg V) comp o xs hf w x v :
  tree_is o xs hf w -> targ_is xs hf x v -> w_err w = None ->
  runs (insert_unique cf comp o x) w (fun r w' =>
    (r.2 = true /\ grown o xs hf v w r.1 w') \/
    (exists u, r.2 = false /\ (r.1, u) ∈ xs /\ w' = w) \/
    (r.1 = t_end o /\ refused cf w w')).
Proof.
  intros [t Hs]%tree_is_sin Hx He. pose proof (targ_rd _ _ _ _ _ _ _ _ Hs Hx) as Hrd.
  eapply insert_unique_any; [exact Hs|exact Hrd|done| | |].
  - intros a ys h' t' orc Hm Ha Hs'. left. split; [done|]. by eapply grown_ok.
  - intros i a u Hi. right. left. exists u. split_and!; [done| |done]. by eapply elem_of_list_lookup_2.
  - intros w' e H1 H2 H3. right. right. split; [done|]. by exists e.
Qed.
Print Assumptions C68_insert.

Theorem C68_emplace V (cf : cfg V) comp o xs hf w x v :
  tree_is o xs hf w -> targ_is xs hf x v -> w_err w = None ->
  runs (emplace_unique cf comp o x) w (fun r w' =>
    (r.2 = true /\ grown o xs hf v w r.1 w') \/
    (exists u, r.2 = false /\ (r.1, u) ∈ xs /\ w_heap w' = w_heap w /\ w_err w' = None) \/
    (r.1 = t_end o /\ refused cf w w')).
Proof.
  intros [t Hs]%tree_is_sin Hx He. pose proof (targ_rd _ _ _ _ _ _ _ _ Hs Hx) as Hrd.
  eapply emplace_unique_any; [exact Hs|exact Hrd|done| | |].
  - intros a ys h' t' orc Hm Ha Hs'. left. split; [done|]. by eapply grown_ok.
  - intros i a u orc Hi. right. left. exists u. split_and!; [done| |done..]. by eapply elem_of_list_lookup_2.
  - intros w' e H1 H2 H3. right. right. split; [done|]. by exists e.
Qed.
Print Assumptions C68_emplace.

Theorem C68_insert_equal V (cf : cfg V) comp o xs hf w x v :
  tree_is o xs hf w -> targ_is xs hf x v -> w_err w = None ->
  let ok := fun a w' => grown o xs hf v w a w' \/ (a = t_end o /\ refused cf w w') in
  runs (insert_equal cf comp o x) w ok /\
  runs (insert_equal_lower cf comp o x) w ok /\
  runs (emplace_equal cf comp o x) w ok.
Proof.
  intros [t Hs]%tree_is_sin Hx He ok. pose proof (targ_rd _ _ _ _ _ _ _ _ Hs Hx) as Hrd.
  assert (forall a ys h' t' orc, one_more (a, v) xs ys -> w_heap w !! a = None -> sin (wk never) o ys h' hf t' ->
    ok a (World h' orc None (S (w_allocs w)) (S (w_ctors w)))) as H1.
  { intros a ys h' t' orc Hm Ha Hs'. left. by eapply grown_ok. }
  assert (forall w' e, w_heap w' = w_heap w -> w_err w' = Some e -> tnode_error cf e -> ok (t_end o) w') as H2.
  { intros w' e H2 H3 H4. right. split; [done|]. by exists e. }
  split_and!; [eapply insert_equal_any|eapply insert_equal_lower_any|eapply emplace_equal_any]; done.
Qed.
Print Assumptions C68_insert_equal.

Theorem C68_lookup V (comp : V -> V -> bool) o xs hf w k v :
  tree_is o xs hf w -> targ_is xs hf k v ->
  let position := fun it (w' : world (tcell V)) => w' = w /\ exists i, i <= length xs /\ it = tpos (t_hdr o) xs i in
  runs (t_find comp o k) w position /\
  runs (lower_bound comp o k) w position /\
  runs (upper_bound comp o k) w position /\
  runs (equal_range comp o k) w (fun r w' => w' = w /\
    exists i j, i <= j /\ j <= length xs /\ r = (tpos (t_hdr o) xs i, tpos (t_hdr o) xs j)) /\
  runs (t_count comp o k) w (fun n w' => w' = w /\ n <= length xs).
Proof.
  intros [t Hs]%tree_is_sin Hx position. pose proof (targ_rd _ _ _ _ _ _ _ _ Hs Hx) as Hrd.
  split_and!.
  - eapply find_any; [exact Hs|exact Hrd|]. intros i Hi. split; [done|]. by exists i.
  - eapply lower_bound_any; [exact Hs|exact Hrd|]. intros i Hi. split; [done|]. by exists i.
  - eapply upper_bound_any; [exact Hs|exact Hrd|]. intros i Hi. split; [done|]. by exists i.
  - eapply equal_range_any; [exact Hs|exact Hrd|]. intros i j Hij Hj. split; [done|]. by exists i, j.
  - eapply count_any; [exact Hs|exact Hrd|]. done.
Qed.
Print Assumptions C68_lookup.

Theorem C68_erase_key V (cf : cfg V) comp o xs hf w k v :
  tree_is o xs hf w -> targ_is xs hf k v ->
  runs (t_erase_key cf comp o k) w (fun n w' =>
    t_no_calls w w' /\ exists i, i + n <= length xs /\ tree_is o (take i xs ++ drop (i + n) xs) hf w').
Proof.
  intros [t Hs]%tree_is_sin Hx. pose proof (targ_rd _ _ _ _ _ _ _ _ Hs Hx) as Hrd.
  eapply erase_key_any; [exact Hs|exact Hrd|]. intros i n h' t' Hn Hs'. split; [done|].
  exists i. split; [done|]. apply tree_is_sin. by exists t'.
Qed.
Print Assumptions C68_erase_key.

Theorem C68_iteration V o xs hf (w : world (tcell V)) :
  tree_is o xs hf w ->
  t_size o w = Done (length xs) w /\ t_walk o w = Done xs.*2 w /\ t_rwalk o w = Done (reverse xs.*2) w.
Proof.
  intros [t Hs]%tree_is_sin. split_and!.
  - apply RbHist.t_runs_state. intros Q HQ. by eapply size_spec; [exact Hs|].
  - apply RbHist.t_runs_state. intros Q HQ. unfold t_walk. rbind. eapply begin_spec; [exact Hs|]. rbind. apply runs_cell_fuel.
    eapply RbHist.t_walk_loop_spec; [exact Hs|lia| |done]. pose proof (RbHist.sin_fuel _ _ _ _ _ _ Hs). lia.
  - apply RbHist.t_runs_state. intros Q HQ. unfold t_rwalk. rbind. eapply begin_spec; [exact Hs|]. rbind. apply runs_cell_fuel.
    replace (t_end o) with (tpos (t_hdr o) xs (length xs)) by (by apply tpos_end).
    eapply RbHist.t_rwalk_loop_spec; [exact Hs|lia| |]. { by eapply RbHist.sin_fuel. }
    by rewrite take_ge by (by rewrite fmap_length).
Qed.
Print Assumptions C68_iteration.

(** ** Whole programs *)

Section prog.
  Context {V : Type} (cf : cfg V) (comp : V -> V -> bool).
  Notation W := (world (tcell V)).
  Notation SI := (sin (wk never)).
  Implicit Types xs : list (addr * V).

  Definition stays (o : tset) hf (w' : W) : Prop :=
    (exists ys t, SI o ys (w_heap w') hf t) /\ (forall e, w_err w' = Some e -> tnode_error cf e).

  Lemma with_aarg_spec o xs t hf x (k : targ V -> M (tcell V) unit) w (Q : unit -> W -> Prop) :
    SI o xs (w_heap w) hf t -> Q tt w -> (forall y v, rd (w_heap w) y v -> runs (k y) w Q) ->
    runs (with_aarg o x k) w Q.
  Proof.
    intros Hs H0 Hk. destruct x as [v|i]; simpl; [by eapply Hk|].
    rbind. eapply RbHist.t_iter_at_spec; [exact Hs|]. case_decide as Hd; [by apply runs_ret|].
    destruct (xs !! i) as [[a v]|] eqn:Ei; [|apply lookup_ge_None in Ei; by rewrite tpos_end in Hd].
    rewrite (tpos_some _ _ _ _ _ Ei). apply (Hk _ v). eapply targ_rd; [exact Hs|]. left. by eapply elem_of_list_lookup_2.
  Qed.
  Lemma use_iter_spec o xs t hf i w (Q : unit -> W -> Prop) :
    SI o xs (w_heap w) hf t -> Q tt w -> runs (use_iter o (tpos (t_hdr o) xs i)) w Q.
  Proof.
    intros Hs HQ. unfold use_iter. rbind. eapply RbHist.read_iter_spec; [exact Hs|]. by apply runs_ret.
  Qed.
  Lemma use_end_spec o w (Q : unit -> W -> Prop) : Q tt w -> runs (use_iter o (t_end o)) w Q.
  Proof. intros HQ. unfold use_iter, read_iter. rewrite decide_True by done. rbind. apply runs_ret. by apply runs_ret. Qed.
  Lemma use_in_spec o xs t hf a (v : V) w (Q : unit -> W -> Prop) :
    SI o xs (w_heap w) hf t -> (a, v) ∈ xs -> Q tt w -> runs (use_iter o a) w Q.
  Proof.
    intros Hs [i Hi]%elem_of_list_lookup HQ. rewrite <-(tpos_some (t_hdr o) xs i a v Hi). by eapply use_iter_spec.
  Qed.
  Lemma one_more_in a (v : V) xs ys : one_more (a, v) xs ys -> (a, v) ∈ ys.
  Proof. intros (i & _ & ->). set_solver. Qed.

  Lemma exec_aop_spec op o xs t hf w :
    SI o xs (w_heap w) hf t -> w_err w = None -> runs (exec_aop cf comp op o) w (fun _ w' => stays o hf w').
  Proof.
    intros Hs He.
    assert (stays o hf w) as Hst. { split; [by exists xs, t|]. by rewrite He. }
    assert (forall xs' t' w', SI o xs' (w_heap w') hf t' -> w_err w' = None -> stays o hf w') as Hst'.
    { intros xs' t' w' Hs' He'. split; [by exists xs', t'|]. by rewrite He'. }
    assert (forall w' e, w_heap w' = w_heap w -> w_err w' = Some e -> tnode_error cf e -> stays o hf w') as Hst2.
    { intros w' e Hw' He' Hne. split; [exists xs, t; by rewrite Hw'|]. rewrite He'. by intros ? [= <-]. }
    destruct op as [x|x|x|x|x|x|i|i n|x|x|x| |]; cbn [exec_aop];
      try (eapply with_aarg_spec; [exact Hs|done|]; intros y v Hy).
    - rbind. eapply insert_unique_any; [exact Hs|exact Hy|done| | |]; cbn [fst].
      + intros a ys h' t' orc Hm _ Hs'. eapply use_in_spec; [exact Hs'|by eapply one_more_in|]. by eapply Hst'.
      + intros i a u Hi. eapply use_in_spec; [exact Hs|by eapply elem_of_list_lookup_2|done].
      + intros w' e H1 H2 H3. apply use_end_spec. by eapply Hst2.
    - rbind. eapply emplace_unique_any; [exact Hs|exact Hy|done| | |]; cbn [fst].
      + intros a ys h' t' orc Hm _ Hs'. eapply use_in_spec; [exact Hs'|by eapply one_more_in|]. by eapply Hst'.
      + intros i a u orc Hi. eapply use_in_spec; [exact Hs|by eapply elem_of_list_lookup_2|]. by eapply Hst'.
      + intros w' e H1 H2 H3. apply use_end_spec. by eapply Hst2.
    - rbind. eapply insert_equal_any; [exact Hs|exact Hy|done| |].
      + intros a ys h' t' orc Hm _ Hs'. eapply use_in_spec; [exact Hs'|by eapply one_more_in|]. by eapply Hst'.
      + intros w' e H1 H2 H3. apply use_end_spec. by eapply Hst2.
    - rbind. eapply emplace_equal_any; [exact Hs|exact Hy|done| |].
      + intros a ys h' t' orc Hm _ Hs'. eapply use_in_spec; [exact Hs'|by eapply one_more_in|]. by eapply Hst'.
      + intros w' e H1 H2 H3. apply use_end_spec. by eapply Hst2.
    - rbind. eapply insert_equal_lower_any; [exact Hs|exact Hy|done| |].
      + intros a ys h' t' orc Hm _ Hs'. eapply use_in_spec; [exact Hs'|by eapply one_more_in|]. by eapply Hst'.
      + intros w' e H1 H2 H3. apply use_end_spec. by eapply Hst2.
    - rbind. eapply erase_key_any; [exact Hs|exact Hy|]. intros i n h' t' Hn Hs'. apply runs_ret. by eapply Hst'.
    - rbind. eapply RbHist.t_iter_at_spec; [exact Hs|]. case_decide as Hd; [by apply runs_ret|].
      destruct (xs !! i) as [[a v]|] eqn:Ei; [|apply lookup_ge_None in Ei; by rewrite tpos_end in Hd].
      pose proof (lookup_lt_Some _ _ _ Ei) as Hi.
      rbind. eapply erase_spec; [exact Hs|done|]. intros h' t' Hs'.
      replace (tpos (t_hdr o) xs (S i)) with (tpos (t_hdr o) (take i xs ++ drop (S i) xs) i).
      2: { rewrite !tpos_first, drop_app_alt by (rewrite take_length; lia). done. }
      eapply use_iter_spec; [exact Hs'|]. by eapply Hst'.
    - rbind. eapply RbHist.t_iter_at_spec; [exact Hs|]. rbind. eapply RbHist.t_iter_at_spec; [exact Hs|].
      assert (forall m, tpos (t_hdr o) xs m = tpos (t_hdr o) xs (m `min` length xs)) as Hmin.
      { intros m. destruct (decide (m <= length xs)); [by rewrite Nat.min_l|]. rewrite Nat.min_r by lia. rewrite !tpos_end by lia. done. }
      rewrite (Hmin i), (Hmin (i + n)). set (i' := i `min` length xs). set (j' := (i + n) `min` length xs).
      rbind. eapply erase_range_spec; [exact Hs|unfold i', j'; lia|unfold j'; lia|]. intros h' t' Hs'.
      replace (tpos (t_hdr o) xs j') with (tpos (t_hdr o) (take i' xs ++ drop j' xs) i').
      2: { rewrite !tpos_first, drop_app_alt by (rewrite take_length; unfold i'; lia). done. }
      eapply use_iter_spec; [exact Hs'|]. by eapply Hst'.
    - rbind. eapply find_any; [exact Hs|exact Hy|]. intros i Hi. by eapply use_iter_spec.
    - rbind. eapply count_any; [exact Hs|exact Hy|]. intros n Hn. by apply runs_ret.
    - rbind. eapply lower_bound_any; [exact Hs|exact Hy|]. intros i Hi.
      rbind. eapply upper_bound_any; [exact Hs|exact Hy|]. intros j Hj.
      rbind. eapply equal_range_any; [exact Hs|exact Hy|]. intros i' j' Hij' Hj'. cbn [fst snd].
      rbind. eapply use_iter_spec; [exact Hs|]. rbind. eapply use_iter_spec; [exact Hs|].
      rbind. eapply use_iter_spec; [exact Hs|]. by eapply use_iter_spec.
    - destruct (C68_iteration V o xs hf w) as (_ & Hw1 & Hw2); [apply tree_is_sin; by exists t|].
      rbind. eexists _, _. split; [exact Hw1|]. rbind. eexists _, _. split; [exact Hw2|]. by apply runs_ret.
    - eapply clear_spec; [exact Hs|]. intros h' Hs'. by eapply Hst'.
  Qed.
  Lemma exec_aops_spec ops o xs t hf w (Q : list (option error) -> W -> Prop) :
    SI o xs (w_heap w) hf t ->
    (forall rs w', length rs = length ops -> (forall e, Some e ∈ rs -> tnode_error cf e) ->
       (exists ys t', SI o ys (w_heap w') hf t') -> Q rs w') ->
    runs (exec_aops cf comp ops o) w Q.
  Proof.
    revert xs t w Q. induction ops as [|op ops IH]; intros xs t w Q Hs HQ; simpl.
    - apply runs_ret. apply HQ; [done| |by exists xs, t]. intros e He. by apply elem_of_nil in He.
    - rbind. apply runs_put_err. rbind. eapply runs_mono; [eapply (exec_aop_spec op o xs t hf); [exact Hs|done]|].
      intros _ w' ((ys & t' & Hs') & Herr). cbv beta. rbind. apply runs_get_err. rbind. eapply IH; [exact Hs'|].
      intros rs w'' Hl Hrs Hend. apply runs_ret. apply HQ; [simpl; lia| |done].
      intros e [He|He]%elem_of_cons; [by apply Herr|by apply Hrs].
  Qed.
End prog.

(** Every call of a history on a tree with an arbitrary comparison function
    ends, and leaves a tree. *)
Theorem C68_history V (cf : cfg V) comp ops o xs hf w :
  tree_is o xs hf w ->
  runs (exec_aops cf comp ops o) w (fun rs w' =>
    length rs = length ops /\ (forall e, Some e ∈ rs -> tnode_error cf e) /\ exists ys, tree_is o ys hf w').
Proof.
  intros [t Hs]%tree_is_sin. eapply exec_aops_spec; [exact Hs|]. intros rs w' Hl Hrs (ys & t' & Hs').
  split_and!; [done..|]. exists ys. apply tree_is_sin. by exists t'.
Qed.
Print Assumptions C68_history.

(** A whole program, from the construction of the tree to its destruction,
    leaves the heap as it was. *)
Theorem C68_program V (cf : cfg V) comp ops w :
  runs (any_program cf comp ops) w (fun rs w' =>
    w_heap w' = w_heap w /\ length rs = length ops /\ (forall e, Some e ∈ rs -> tnode_error cf e)).
Proof.
  unfold any_program. rbind. apply (new_spec (wk never)). intros a h' Ha Hs. rbind. eapply exec_aops_spec; [exact Hs|].
  intros rs w' Hl Hrs (ys & t' & Hs'). rbind. eapply destroy_spec; [exact Hs'|]. by apply runs_ret.
Qed.
Print Assumptions C68_program.

(** The members that take a hint are not safe in this sense: with [<=] as the
    comparison function, inserting with the hint end() a value equal to the
    greatest one overwrites the left link of the last node.  The node behind
    that link is lost: it is not found by iteration and never freed. *)
Theorem C68_hint_refuted :
  ~ (forall (cf : cfg nat) comp o xs hf w x v,
       tree_is o xs hf w -> targ_is xs hf x v -> w_err w = None ->
       runs (do! insert_unique_at cf comp o (t_end o) x in t_destroy o) w (fun _ w' => w_heap w' = hf)).
Proof.
  intros Hall.
  assert (runs (do! insert_unique_at acD Nat.leb axO (t_end axO) (TAVal 5) in t_destroy axO) (aw [])
    (fun _ w' => (if w_heap w' !! (5%positive : addr) then true else false) = true)) as (u & w'' & Hrun' & Hn) by compute_run.
  destruct (Hall acD Nat.leb axO axX ∅ (aw []) (TAVal 5) 5 (ax_is []) eq_refl eq_refl) as ([] & w' & Hrun & Hh).
  rewrite Hrun in Hrun'. injection Hrun' as _ <-. clear Hrun Hall. rewrite Hh, lookup_empty in Hn. discriminate Hn.
Qed.
Print Assumptions C68_hint_refuted.

Example C68_example :
  tree_is axO axX ∅ (aw []) /\ targ_is axX ∅ (TARef 5) 20 /\ ~ swo odd_comp /\
  runs (let! r := insert_unique acD odd_comp axO (TAVal 5) in let! l := t_walk axO in ret (r.2, l)) (aw []) (fun r _ =>
    r.1 = true /\ r.2 = [5; 50; 30; 20; 5]) /\
  runs (let! r := insert_unique acD odd_comp axO (TAVal 7) in let! l := t_walk axO in ret (r.2, l)) (aw []) (fun r _ =>
    r.1 = true /\ r.2 = [50; 30; 7; 20; 5]) /\
  runs (any_program acD odd_comp [AoInsert (ArgVal 5); AoInsertEqual (ArgElem 0); AoInsert (ArgVal 7); AoErase 1; AoEraseKey (ArgElem 0); AoWalk])
    (World ∅ [EvFail 7; EvOk 3; EvOk 4] None 0 0) (fun rs w' =>
    w_heap w' = ∅ /\ rs = [Some EBadAlloc; None; None; None; None; None]).
Proof.
  split; [apply ax_is|]. split; [left; apply (elem_of_list_lookup_2 _ 2); done|].
  split; [intros (Hirr & _); by specialize (Hirr 5)|].
  split; [compute_run|]. split; [compute_run|]. compute_run.
Qed.
