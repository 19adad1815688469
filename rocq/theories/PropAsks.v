(** * Property C78: who calls the allocator, and how often

    Stated for every state of the memory, every environment and every kind of
    element, whether or not the arguments make sense: a call that returns has
    behaved as described. *)
From Verif Require Import Asks HonestList ListExtra PropList.

Ltac asks_step :=
  first
  [ apply asks_fail
  | solve [apply asks_silent; sh]
  | apply asks_silent_bind; [solve [sh]|intros]
  | apply asks_bind_silent; [|solve [sh]] ].

(** ** list *)

Lemma asks_create_node V (cf : cfg V) o x : asks 1 (create_node cf o x).
Proof.
  unfold create_node. apply asks_alloc; [sh|]. intros [a|]; [|apply builds_fail].
  apply builds_bind_silent; [apply builds_construct; sh|sh].
Qed.
Lemma asks_emplace V (cf : cfg V) o pos x : asks 1 (lst_emplace cf o pos x).
Proof.
  unfold lst_emplace. apply (asks_bind_test 1 0 (create_node cf o x) (fun _ => lst_end cf o)); [apply asks_create_node|sh|]. intros r. apply asks_silent. sh.
Qed.
Lemma asks_push_back V (cf : cfg V) o x : asks 1 (lst_push_back cf o x).
Proof. unfold lst_push_back. repeat (first [apply asks_emplace|asks_step]). Qed.
Lemma asks_push_front V (cf : cfg V) o x : asks 1 (lst_push_front cf o x).
Proof. unfold lst_push_front. repeat (first [apply asks_emplace|asks_step]). Qed.
Lemma asks_insert_n V (cf : cfg V) n : forall o pos x, asks n (lst_insert_n cf o pos n x).
Proof.
  induction n as [|n IH]; intros o pos x; cbn [lst_insert_n]; [apply asks_silent; sh|].
  apply (asks_bind_test 1 n); [apply asks_emplace|sh|]. intros r. apply IH.
Qed.
Lemma asks_insert_range V (cf : cfg V) xs : forall o pos, asks (length xs) (lst_insert_range cf o pos xs).
Proof.
  induction xs as [|x xs IH]; intros o pos; cbn [lst_insert_range]; [apply asks_silent; sh|].
  apply (asks_bind_test 1 (length xs)); [apply asks_emplace|sh|]. intros r. apply IH.
Qed.
Lemma asks_push_n V (cf : cfg V) n : forall o x, asks n (push_n_loop cf o n x).
Proof.
  induction n as [|n IH]; intros o x; cbn [push_n_loop]; [apply asks_silent; sh|].
  apply (asks_bind_test 1 n); [apply asks_push_back|sh|]. intros _. apply IH.
Qed.
Lemma asks_push_args V (cf : cfg V) xs : forall o, asks (length xs) (push_args_loop cf o xs).
Proof.
  induction xs as [|x xs IH]; intros o; cbn [push_args_loop]; [apply asks_silent; sh|].
  apply (asks_bind_test 1 (length xs)); [apply asks_push_back|sh|]. intros _. apply IH.
Qed.

(** Adding elements: one allocation and one construction each. *)
Theorem C78_list_adds V (cf : cfg V) o pos n x xs :
  asks 1 (lst_push_back cf o x) /\ asks 1 (lst_push_front cf o x) /\
  asks 1 (lst_insert cf o pos x) /\ asks 1 (lst_emplace cf o pos x) /\
  asks n (lst_insert_n cf o pos n x) /\ asks (length xs) (lst_insert_range cf o pos xs) /\
  asks n (lst_assign_n cf o n x) /\ asks (length xs) (lst_assign_args cf o xs).
Proof.
  split_and!; [apply asks_push_back|apply asks_push_front|apply asks_emplace|apply asks_emplace|apply asks_insert_n|apply asks_insert_range|..].
  - unfold lst_assign_n. do 2 asks_step. apply asks_bind_silent; [apply asks_push_n|sh].
  - unfold lst_assign_args. do 2 asks_step. apply asks_bind_silent; [apply asks_push_args|sh].
Qed.
Print Assumptions C78_list_adds.

(** Everything else works with the nodes that are there. *)
Theorem C78_list_nothing V (cf : cfg V) comp eqv o other al pos first last :
  asks_nothing (lst_new cf al) /\ asks_nothing (lst_destroy (V := V) o) /\ asks_nothing (lst_clear cf o) /\
  asks_nothing (lst_erase cf o pos) /\ asks_nothing (lst_erase_range cf o first last) /\
  asks_nothing (lst_pop_back cf o) /\ asks_nothing (lst_pop_front cf o) /\
  asks_nothing (lst_swap cf o other) /\ asks_nothing (lst_move_ctor cf other) /\ asks_nothing (lst_move_assign cf o other) /\
  asks_nothing (lst_splice cf o pos other) /\ asks_nothing (lst_splice_one cf pos first) /\
  asks_nothing (lst_splice_range cf pos first last) /\
  asks_nothing (lst_merge cf comp o other) /\ asks_nothing (lst_sort cf comp o) /\
  asks_nothing (lst_equal cf eqv o other) /\
  asks_nothing (lst_size cf o) /\ asks_nothing (lst_empty (V := V) o) /\ asks_nothing (lst_front cf o) /\ asks_nothing (lst_back cf o) /\
  asks_nothing (lst_begin cf o) /\ asks_nothing (lst_end cf o) /\
  asks_nothing (it_inc cf pos) /\ asks_nothing (it_dec cf pos) /\ asks_nothing (it_deref cf pos) /\ asks_nothing (it_eq cf first last).
Proof. split_and!; match goal with |- asks_nothing ?m => change (silent m) end; sh. Qed.
Print Assumptions C78_list_nothing.

(** Copying needs a list to copy: its length is the number of requests. *)
Lemma runs_silent C A (m : M C A) w Q : silent m -> runs m w Q ->
  runs m w (fun a w' => Q a w' /\ w_err w' = w_err w /\ w_allocs w' = w_allocs w /\ w_ctors w' = w_ctors w).
Proof.
  intros Hm (a & w' & Hr & HQ). exists a, w'. split; [done|]. split; [done|]. by destruct (Hm _ _ _ Hr) as (_ & ? & ? & ?).
Qed.
Lemma runs_push_nodes_asks V (cf : cfg V) fuel w al hdr xs ht a m b R hv hf last :
  heap_is w hv hf -> lists_own al ((hdr, xs) :: (ht, a ++ m ++ b) :: R) hv -> w_err w = None ->
  length m < fuel -> last = hdx b.*1 ht ->
  runs (push_nodes_loop cf fuel (Lst al hdr) (hdx (m ++ b).*1 ht) last) w (fun _ w' => asked (length m) w w' /\
    exists m' hv', lists_own al ((hdr, xs ++ m') :: (ht, a ++ m ++ b) :: R) hv' /\ heap_is w' hv' hf).
Proof.
  intros Hh Ho He Hf ->. revert w hv xs a m Hh Ho He Hf.
  induction fuel as [|fuel IH]; intros w hv xs a m Hh Ho He Hf; [lia|].
  assert (Ho2 : lists_own al ((ht, a ++ m ++ b) :: (hdr, xs) :: R) hv).
  { eapply own_perm; [|done]. apply perm_swap. }
  simpl. rbind. eapply runs_it_eq; [done|exact Ho2|apply hdx_in|rewrite (assoc_L (++)); apply hdx_in|].
  destruct m as [|[y v] m]; simpl.
  - rewrite bool_decide_true by done. apply runs_ret. split; [by apply asked_0|]. exists [], hv. by rewrite app_nil_r.
  - rewrite bool_decide_false.
    2: { destruct b as [|[z t] b]; simpl; [by eapply own_hdr_ne|].
         eapply (own_nodup_at _ _ a y v _ _ _ z t m); [exact Ho2|done]. }
    rbind. eapply runs_check_own; [done|exact Ho2|apply node_in|].
    rbind. pose proof (asks_push_back V cf (Lst al hdr) (LARef y) w) as Hp.
    destruct (runs_push_back cf w al hdr xs ((ht, a ++ (y, v) :: m ++ b) :: R) hv hf (LARef y) v
      (fun _ w1 => (w_err w1 = None /\ exists hv' c, lists_own al ((hdr, xs ++ [(c, v)]) :: (ht, a ++ (y, v) :: m ++ b) :: R) hv' /\ heap_is w1 hv' hf) \/
                   (w_err w1 <> None /\ w_heap w1 = w_heap w))) as (u & w1 & Hr & Hc);
      [done|done|done|simpl; left; set_solver| | |].
    { intros c hv' w' Ha Ho' Hh' He' _ _. left. eauto. }
    { intros w' e Hw' He' _ _. right. by rewrite He'. }
    exists u, w1. split; [exact Hr|]. specialize (Hp _ _ He Hr).
    destruct Hc as [(He1 & hv' & c & Ho' & Hh')|[He1 Hw1]].
    + rbind. apply runs_has_err. rewrite He1.
      assert (Ho2' : lists_own al ((ht, a ++ (y, v) :: m ++ b) :: (hdr, xs ++ [(c, v)]) :: R) hv').
      { eapply own_perm; [|exact Ho']. apply perm_swap. }
      rbind. eapply runs_it_inc; [done|exact Ho2'|].
      eapply runs_mono; [eapply (IH w1 hv' (xs ++ [(c, v)]) (a ++ [(y, v)]) m); try done|].
      * by rewrite <-(assoc_L (++) a).
      * simpl in Hf. lia.
      * intros [] w' (Ha & m' & hv2 & Ho3 & Hh3). split; [by eapply (asked_trans 1)|].
        exists ((c, v) :: m'), hv2. split; [|done]. by rewrite <-!(assoc_L (++)) in Ho3.
    + rbind. apply runs_has_err. destruct (w_err w1) eqn:E1; [|done]. apply runs_ret.
      split; [apply (asked_failed 1); [done|]; by rewrite E1|]. exists [], hv. rewrite app_nil_r. split; [done|by eapply heap_is_eq].
Qed.

Theorem C78_list_copy V (cf : cfg V) al hdr xs h2 ys R hv hf w al2 :
  al = c_dflt cf \/ xs = [] ->
  lists_own al ((hdr, xs) :: (h2, ys) :: R) hv -> heap_is w hv hf -> w_err w = None ->
  runs (lst_copy cf (Lst al hdr) (Lst al2 h2)) w (fun _ w' => asked (length ys) w w').
Proof.
  intros Hal Ho Hh He. assert (c_dflt cf = al \/ xs = []) as Hal' by (destruct Hal; auto).
  assert (Ho2 : lists_own al ((h2, ys) :: (hdr, xs) :: R) hv).
  { eapply own_perm; [|done]. apply perm_swap. }
  unfold lst_copy. rbind. eapply runs_begin; [done|exact Ho2|]. rbind. eapply runs_end; [done|exact Ho2|]. clear Ho2.
  unfold lst_assign_nodes. rbind. eapply runs_mono.
  { eapply (runs_silent _ _ _ _ (fun o w1 => exists t hv1, o = Lst (c_dflt cf) t /\ lists_own al ((t, []) :: (hdr, xs) :: (h2, ys) :: R) hv1 /\ heap_is w1 hv1 hf)); [sh|].
    eapply runs_lst_new; [done..|]. intros t hv1 _ Ho1 Hh1. eauto. }
  intros o1 w1 ((t & hv1 & -> & Ho1 & Hh1) & He1 & Ha1 & Hc1).
  rbind. eapply runs_mono.
  { eapply (runs_silent _ _ _ _ (fun _ w2 => exists hv2, lists_own al ((hdr, []) :: (h2, ys) :: (t, xs) :: R) hv2 /\ heap_is w2 hv2 hf)); [sh|].
    eapply (runs_lst_swap cf _ al t [] hdr xs); [done..|]. intros hv2 Ho2 Hh2. exists hv2. split; [|done]. eapply own_perm; [|exact Ho2]; perm_solve. }
  intros [] w2 ((hv2 & Ho2 & Hh2) & He2 & Ha2 & Hc2).
  rbind. eapply runs_heap_fuel; [exact Hh2|exact Ho2|]. intros fuel Hfu. rewrite list_addrs_cons in Hfu. simpl in Hfu.
  rewrite app_length, fmap_length in Hfu.
  pose proof (runs_push_nodes_asks V cf fuel w2 al hdr [] h2 [] ys [] ((t, xs) :: R) hv2 hf h2) as Hp. rewrite app_nil_r in Hp.
  rbind. eapply runs_mono; [apply Hp; [done|done|congruence|lia|done]|]. clear Hp.
  intros [] w3 (Has & m' & hv3 & Ho3 & Hh3). eapply runs_mono.
  { eapply (runs_silent _ _ _ _ (fun _ _ => True)); [sh|].
    eapply (runs_drop_tmp0 _ al _ t xs ((hdr, m') :: (h2, ys) :: R)); [exact Hh3|eapply own_perm; [|exact Ho3]; simpl; perm_solve|exact Hal'|done]. }
  intros [] w4 (_ & He4 & Ha4 & Hc4). eapply asked_same; [|done..]. eapply asked_from; [exact Has|congruence..].
Qed.
Print Assumptions C78_list_copy.

(** three insertions, the third of which fails; a copy of four elements; sort
    and clear *)
Example C78_list_example :
  runs (lst_insert_n lcD oA (lpos 1 exA 3) 5 (LARef 3)) (lw1 [EvOk 20; EvOk 1; EvOk 21; EvOk 1; EvOk 22; EvFail 1]) (fun _ w' =>
    w_err w' = Some (EElem 1) /\ w_allocs w' = 3 /\ w_ctors w' = 3) /\
  runs (lst_insert_n lcD oA (lpos 1 exA 3) 5 (LARef 3)) (lw1 [EvOk 20; EvOk 1; EvFail 0]) (fun _ w' =>
    w_err w' = Some EBadAlloc /\ w_allocs w' = 2 /\ w_ctors w' = 1) /\
  lists_own 0 ((10%positive, exB) :: (1%positive, exA) :: []) (w_heap (lw1 [])) /\
  runs (lst_copy lcD oB oA) (lw1 []) (fun _ w' => w_err w' = None /\ w_allocs w' = 4 /\ w_ctors w' = 4) /\
  runs (do! lst_sort lcD (fun x y => y <? x) oA in do! lst_clear lcD oB in lst_walk lcD oA) (lw1 []) (fun l w' =>
    l = [4; 3; 2; 1] /\ w_allocs w' = 0 /\ w_ctors w' = 0).
Proof.
  split; [compute_run|]. split; [compute_run|]. split; [|split; compute_run].
  eapply (own_perm _ ex_ls); [apply perm_swap|]. apply own_b_sound. by vm_compute.
Qed.
