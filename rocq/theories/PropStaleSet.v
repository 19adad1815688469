(** * C16: trees that keep equal values, and copies of trees, with an error
    object that is already set *)
From Verif Require Import RbExtra RbMulti PropSet PropMulti PropStale.

(** Insertion into a tree that keeps equal values always asks for a node.  With
    an error object that is set none of the five ways to insert adds the value;
    all return end() and lose the node, unless the allocator refused it. *)
Theorem C16_stale_multiset V (cf : cfg V) comp o xs hf w x v i :
  swo comp -> mset_is comp o xs hf w -> w_err w <> None -> targ_is xs hf x v -> i <= length xs ->
  let lost it w' := it = t_end o /\ leaks_one (TCell None None None None (TNode (t_alloc o) None)) w w' in
  runs (insert_equal cf comp o x) w lost /\
  runs (insert_equal_lower cf comp o x) w lost /\
  runs (insert_equal_at cf comp o (tpos (t_hdr o) xs i) x) w lost /\
  runs (emplace_equal cf comp o x) w lost /\
  runs (emplace_hint_equal cf comp o (tpos (t_hdr o) xs i) x) w lost.
Proof.
  intros Hswo [t Hs]%mset_is_sin He Hx Hi lost. pose proof (targ_rd _ _ _ _ _ _ _ _ Hs Hx) as Hrd.
  assert (Hins : forall xo k, plug k Leaf = t -> mpos comp k v -> mside comp xo k v ->
    runs (m_insert cf comp o xo (cpar (t_hdr o) k) x) w lost).
  { intros xo k Hk Hp Hsd. rewrite <-Hk in Hs. unfold m_insert. rbind.
    eapply mside_spec; [done|exact Hs|done|done|by apply rd_reads|].
    apply runs_create_stale; [done|]. intros w' Hl. by apply runs_ret. }
  assert (Hlow : runs (insert_equal_lower cf comp o x) w lost).
  { unfold insert_equal_lower. rbind. eapply runs_root; [by eapply sin_hdr|].
    rbind. apply runs_tree_fuel. pose proof (tree_height_fuel _ _ _ _ _ _ Hs) as Hf. pose proof Hs as (Ht & HE & Hrb & Ha).
    rbind. eapply (equal_lower_loop_spec _ _ _ (t_hdr o) _ _ _ _ _ Top); [exact Ht|exact Hrd|done|simpl; rewrite HE; by apply wk_down_lower|set_solver|set_solver|].
    simpl plug. intros k Hk Hpre Hpost. rewrite <-Hk in Hs. unfold m_insert_lower. rbind.
    eapply mside_lower_spec; [done|exact Hs|done|by apply rd_reads|].
    apply runs_create_stale; [done|]. intros w' Hl. by apply runs_ret. }
  split_and!; [|done|..].
  - unfold insert_equal. rbind. eapply equal_pos_spec; [done|exact Hs|exact Hrd|]. intros k Hk Hup.
    apply Hins; [done|by apply mupper_mpos|by apply mupper_side].
  - unfold insert_equal_at. rbind. eapply hint_equal_pos_spec; [done|exact Hs|exact Hrd|done| |].
    + intros xo k Hk Hpos Hsd _. by apply Hins.
    + by intros _.
  - apply runs_create_stale; [done|]. intros w' Hl. by apply runs_ret.
  - apply runs_create_stale; [done|]. intros w' Hl. by apply runs_ret.
  Unshelve. done.
Qed.
Print Assumptions C16_stale_multiset.

(** Copying a set to another one with an error object that is set: the target
    is emptied, nothing is copied and nothing is lost. *)
Theorem C16_stale_set_copy V (cf : cfg V) comp o other xs hf w :
  set_is comp o xs hf w -> t_hdr o <> t_hdr other -> w_err w <> None ->
  runs (t_copy cf o other) w (fun _ w' =>
    set_is comp o [] hf w' /\ w_err w' = w_err w /\ w_orc w' = w_orc w).
Proof.
  intros [t Hs]%set_is_sin Hne He. unfold t_copy. rewrite decide_False by done. rbind.
  eapply clear_spec; [exact Hs|]. intros h' Hs'. rbind. apply runs_has_err. simpl.
  destruct (w_err w) eqn:E; [|done]. apply runs_ret. split; [|done]. apply set_is_sin. by exists Leaf.
Qed.
Print Assumptions C16_stale_set_copy.

Example C16_stale_multiset_example :
  mset_is tens mxO mxX ∅ (stale (mw1 [])) /\
  runs (do! insert_equal mcD tens mxO (TAVal 29) in do! insert_equal_at mcD tens mxO (tpos 1 mxX 2) (TAVal 29) in
        let! l := t_walk mxO in do! t_destroy mxO in ret l) (stale (mw1 [EvOk 50; EvOk 60])) (fun l w' =>
    l = [12; 25; 21; 28; 33; 40] /\
    w_heap w' = {[ 50%positive := TCell None None None None (TNode (t_alloc mxO) None); 60%positive := TCell None None None None (TNode (t_alloc mxO) None) ]}) /\
  runs (do! t_copy tcD exO exO2 in let! l := t_walk exO in let! l2 := t_walk exO2 in ret (l, l2)) (stale (tw2 [])) (fun r w' =>
    r = ([], [7; 15; 50]) /\ size (w_heap w') = 5).
Proof. split; [apply mx_is|]. split; compute_run. Qed.
