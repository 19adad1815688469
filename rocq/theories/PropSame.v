(** * Property C85: what a program observes depends on the failures of the
      environment, not on the addresses it gets *)
From Verif Require Import SameSpec ListDetHist PropList PropConc PropConcList.

(** ** How much of a call is done *)

Lemma first_or_none o n : succeeds_before o n \/ exists f c, first_failure o f c /\ f < n.
Proof.
  induction n as [|n [IH|(f & c & Hf & Hn)]]; [left; intros g c Hg; lia| |right; exists f, c; split; [done|lia]].
  destruct (o !! n) as [[c|a]|] eqn:En.
  - right. exists n, c. split; [by split|lia].
  - left. intros g c Hg. destruct (decide (g = n)) as [->|]; [by rewrite En|apply IH; lia].
  - left. intros g c Hg. destruct (decide (g = n)) as [->|]; [by rewrite En|apply IH; lia].
Qed.

Lemma one_node_ok V (cf : cfg V) o : succeeds_before o (answers_each cf) -> one_node cf o = (None, drop (answers_each cf) o).
Proof.
  intros Hs. pose proof (fun c => Hs 0 c) as H0. pose proof (fun c => Hs 1 c) as H1. pose proof (fun c => Hs 2 c) as H2.
  unfold answers_each, one_node, one_answer in *. destruct (c_kind cf).
  all: destruct o as [|[c0|a0] [|[c1|a1] [|[c2|a2] o]]]; simpl in *; try done.
  all: try (exfalso; eapply H0; [lia|done]); try (exfalso; eapply H1; [lia|done]); try (exfalso; eapply H2; [lia|done]).
Qed.
Lemma one_node_fails V (cf : cfg V) o f c : first_failure o f c -> f < answers_each cf ->
  one_node cf o = (Some (if decide (f = 0) then EBadAlloc else EElem c), drop (S f) o).
Proof.
  intros [Hf Hs]. pose proof (fun c => Hs 0 c) as H0. pose proof (fun c => Hs 1 c) as H1.
  unfold answers_each, one_node, one_answer in *. destruct (c_kind cf); intros Hlt.
  all: destruct f as [|[|[|f]]]; try (exfalso; lia).
  all: destruct o as [|[c0|a0] [|[c1|a1] [|[c2|a2] o]]]; simpl in *; simplify_eq; try done.
  all: try (exfalso; eapply H0; [lia|done]); try (exfalso; eapply H1; [lia|done]).
Qed.
Lemma n_nodes_outcome V (cf : cfg V) n o k e o' : n_nodes cf n o = (k, e, o') -> outcome cf n o k e.
Proof.
  assert (Hp : answers_each cf <> 0) by (unfold answers_each; by destruct (c_kind cf)).
  set (p := answers_each cf) in *.
  revert o k e o'. induction n as [|n IH]; intros o k e o'; simpl.
  - intros [= <- <- <-]. split; [done|]. intros f c _ Hf. simpl in Hf. lia.
  - destruct (first_or_none o p) as [Hs|(f & c & Hf & Hlt)].
    + rewrite one_node_ok by done. fold p. destruct (n_nodes cf n (drop p o)) as [[k1 e1] o1] eqn:E1. intros [= <- <- <-].
      destruct (IH _ _ _ _ E1) as [H1 H2]. fold p in H1, H2. split; fold p.
      * intros Hn. destruct H1 as [-> ->]; [|done]. intros g c Hg. rewrite lookup_drop. apply Hn. lia.
      * intros f c [Hf Hb] Hlt. assert (Hge : p <= f). { destruct (decide (p <= f)); [done|]. exfalso. eapply (Hs f c); [lia|done]. }
        destruct (H2 (f - p) c) as [-> ->]; [|lia|].
        -- split; [rewrite lookup_drop; by replace (p + (f - p)) with f by lia|]. intros g c' Hg. rewrite lookup_drop. apply Hb. lia.
        -- assert (Hd : f / p = (f - p) / p + 1) by (rewrite <-Nat.div_add by done; f_equal; lia).
           assert (Hm : f mod p = (f - p) mod p) by (rewrite <-(Nat.mod_add (f - p) 1) by done; f_equal; lia).
           rewrite Hd, Hm. split; [lia|done].
    + rewrite (one_node_fails _ _ _ _ _ Hf) by done. intros [= <- <- <-]. split; fold p.
      * intros Hs. exfalso. eapply (Hs f c); [lia|apply Hf].
      * intros f' c' [Hf' Hb'] _. destruct Hf as [Hf Hb].
        assert (f' = f) as ->. { destruct (Nat.lt_trichotomy f f') as [?|[->|?]]; [exfalso; by eapply Hb'|done|exfalso; by eapply Hb]. }
        simplify_eq. rewrite Nat.div_small, Nat.mod_small by done. done.
Qed.

(** Calls that add several elements: which of them are in the list afterwards,
    and what is reported, follows from the answers of the environment. *)
Theorem C85_list_adds V (cf : cfg V) al hdr l r R hv hf w :
  heap_is w hv hf -> lists_own al ((hdr, l ++ r) :: R) hv -> w_err w = None ->
  (forall n x v, arg_in ((hdr, l ++ r) :: R) hf x v ->
     runs (lst_insert_n cf (Lst al hdr) (lpos hdr (l ++ r) (length l)) n x) w (fun _ w' => exists k m,
       outcome cf n (w_orc w) k (w_err w') /\ m.*2 = replicate k v /\ lists_are al ((hdr, l ++ m ++ r) :: R) hf w')) /\
  (forall xs vs, Forall2 (arg_in ((hdr, l ++ r) :: R) hf) xs vs ->
     runs (lst_insert_range cf (Lst al hdr) (lpos hdr (l ++ r) (length l)) xs) w (fun _ w' => exists k m,
       outcome cf (length vs) (w_orc w) k (w_err w') /\ m.*2 = reverse (take k vs) /\ lists_are al ((hdr, l ++ m ++ r) :: R) hf w')) /\
  (al = c_dflt cf -> forall n x v, arg_in ((hdr, l ++ r) :: R) hf x v ->
     runs (lst_assign_n cf (Lst al hdr) n x) w (fun _ w' => exists k m,
       outcome cf n (w_orc w) k (w_err w') /\ m.*2 = replicate k v /\ lists_are al ((hdr, m) :: R) hf w')) /\
  (al = c_dflt cf -> forall xs vs, Forall2 (arg_in ((hdr, l ++ r) :: R) hf) xs vs ->
     runs (lst_assign_args cf (Lst al hdr) xs) w (fun _ w' => exists k m,
       outcome cf (length vs) (w_orc w) k (w_err w') /\ m.*2 = take k vs /\ lists_are al ((hdr, m) :: R) hf w')) /\
  (al = c_dflt cf -> forall al2 h2 ys, (h2, ys) ∈ R ->
     runs (lst_copy cf (Lst al hdr) (Lst al2 h2)) w (fun _ w' => exists k m,
       outcome cf (length ys) (w_orc w) k (w_err w') /\ m.*2 = take k ys.*2 /\ lists_are al ((hdr, m) :: R) hf w')).
Proof.
  intros Hh Ho He. rewrite lpos_app. split_and!.
  - intros n x v Hx. eapply runs_mono; [by eapply exact_insert_n|].
    intros _ w' (k & m & hv' & Hn & Hm & Ho' & Hh'). exists k, m. split; [by eapply n_nodes_outcome|]. split; [done|by exists hv'].
  - intros xs vs Hx. eapply runs_mono; [by eapply exact_insert_range|].
    intros _ w' (k & m & hv' & Hn & Hm & Ho' & Hh'). exists k, m. split; [by eapply n_nodes_outcome|]. split; [done|by exists hv'].
  - intros Hal n x v Hx. eapply runs_mono; [eapply exact_assign_n; [done..|by left]|].
    intros _ w' (k & m & hv' & Hn & Hm & Ho' & Hh'). exists k, m. split; [by eapply n_nodes_outcome|]. split; [done|by exists hv'].
  - intros Hal xs vs Hx. eapply runs_mono; [eapply exact_assign_args; [done..|by left]|].
    intros _ w' (k & m & hv' & Hn & Hm & Ho' & Hh'). exists k, m. split; [by eapply n_nodes_outcome|]. split; [done|by exists hv'].
  - intros Hal al2 h2 ys Hin. apply elem_of_Permutation in Hin as [R' HR].
    eapply runs_mono; [eapply (exact_copy cf w al hdr (l ++ r) h2 ys R'); [done|eapply own_perm; [|exact Ho]; by rewrite HR|done|by left]|].
    intros _ w' (k & m & hv' & Hn & Hm & Ho' & Hh'). exists k, m. split; [by eapply n_nodes_outcome|]. split; [done|].
    exists hv'. split; [|done]. eapply own_perm; [|exact Ho']. by rewrite HR.
Qed.
Print Assumptions C85_list_adds.

(** ** Whole programs

    A client creates [k] lists, makes any calls on them, visits all elements
    and destroys the lists.  It is run in two worlds with different memory and
    different addresses, where the same requests are refused: all calls report
    the same and the same elements are visited.  For sort() the comparison has
    to be a strict weak order. *)
Lemma runs_list_thread_det V (cf : cfg V) comp k ops w :
  runs (list_thread cf comp k ops) w (fun r w' => lops_det cf comp ops (replicate k []) (w_orc w) r.1 r.2).
Proof.
  unfold list_thread, list_program. rbind. rbind. eapply runs_mono.
  { eapply (runs_with_orc _ _ (fun os w' => exists hds hv', os = Lst (c_dflt cf) <$> hds /\ length hds = k /\ row cf hds (replicate k []) hv' /\ heap_is w' hv' (w_heap w))); [sh|].
    eapply runs_new_row; [apply heap_nothing|apply own_empty|]. intros hds hv' Hl Hr Hh. by exists hds, hv'. }
  intros os w1 ((hds & hv' & -> & Hl & Hr & Hh) & _ & Hw). rbind. eapply det_exec_lops; [done..|].
  intros es xss' hv'' w' Hr' Hh' Hs. apply runs_ret. cbn [fst snd].
  rbind. eexists _, _. split; [apply (runs_walk_lists V cf _ (vals xss'))|].
  - unfold vals. rewrite !fmap_length. apply Hr'.
  - intros i o l Hi Hls. rewrite list_lookup_fmap in Hi. destruct (hds !! i) as [h|] eqn:Eh; simplify_eq/=.
    rewrite vals_lookup in Hls. destruct (xss' !! i) as [xs|] eqn:Ex; simplify_eq/=. by eapply row_shows.
  - rbind. eapply runs_destroy_row; [done..|]. intros w2 _. apply runs_ret. simpl.
    rewrite Hw in Hs. unfold vals in Hs at 1. by rewrite fmap_replicate in Hs.
Qed.

Theorem C85_lists V (cf : cfg V) comp k ops w1 w2 :
  swo comp \/ (forall i, LoSort i ∉ ops) -> same_failures (w_orc w1) (w_orc w2) ->
  exists r w1' w2', list_thread cf comp k ops w1 = Done r w1' /\ list_thread cf comp k ops w2 = Done r w2'.
Proof.
  intros Hw Hs. destruct (runs_list_thread_det V cf comp k ops w1) as ([es1 ls1] & w1' & H1 & Hd1).
  destruct (runs_list_thread_det V cf comp k ops w2) as ([es2 ls2] & w2' & H2 & Hd2). simpl in *.
  destruct (lops_det_unique cf comp ops _ _ _ _ _ _ _ Hw Hs Hd1 Hd2) as [-> ->]. eauto.
Qed.
Print Assumptions C85_lists.

(** The same for the threads of C80: whatever the other threads do, and in
    whatever order they run, a thread gets the answers it would get alone. *)
Theorem C85_list_threads V (cf : cfg V) comp H (ts : list (nat * list (lop V) * list event)) ps sched :
  swo comp -> Forall2 (fun p t => presents p (list_thread cf comp t.1.1 t.1.2)) ps ts ->
  exists s', crun sched (start H (zip_with (fun p t => Job p ∅ t.2) ps ts)) = inl s' /\
    forall i t th r w, ts !! i = Some t -> cs_thr s' !! i = Some th -> finished th r -> same_failures (w_orc w) t.2 ->
      exists w', list_thread cf comp t.1.1 t.1.2 w = Done r w'.
Proof.
  intros Hw Hps.
  destruct (C80_programs _ _ H ps ts.*2 (fun i r => forall t w, ts !! i = Some t -> same_failures (w_orc w) t.2 ->
    exists w', list_thread cf comp t.1.1 t.1.2 w = Done r w') sched) as (s' & Hr & _ & Hfin & _).
  - rewrite fmap_length. symmetry. by eapply Forall2_length.
  - intros i p o o' Hp Ho Hsf. destruct (Forall2_lookup_l _ _ _ _ _ Hps Hp) as (t & Ht & Hpt).
    rewrite list_lookup_fmap, Ht in Ho. simplify_eq/=.
    destruct (runs_list_thread V cf comp t.1.1 t.1.2 (World ∅ o' None 0 0)) as (r & w' & Hr & _ & Hh).
    exists r, w'. rewrite Hpt. split; [done|]. split; [|done]. intros t' w Ht' Hst. simplify_eq.
    destruct (C85_lists V cf comp t.1.1 t.1.2 w (World ∅ o' None 0 0)) as (r2 & w2 & w3 & H2 & H3); [by left| |].
    { simpl. intros g c. rewrite (Hst g c). symmetry. apply Hsf. }
    rewrite Hr in H3. simplify_eq. eauto.
  - exists s'. rewrite zip_with_fmap_r in Hr. split; [done|]. intros i t th r w Ht Hth Hf Hst. by eapply Hfin.
Qed.
Print Assumptions C85_list_threads.

(** A copy of three elements that fails at the construction of the second one,
    and a sort; two worlds with different addresses and different memory. *)
Definition same_ops : list (lop nat) :=
  [LoInsertVals 0 0 [1; 2; 3]; LoCopy 1 0; LoPushBack 1 (HElem 0 2); LoSort 0].
Definition same_orc (a : addr) : list event :=
  [EvOk a; EvOk 1; EvOk 1; EvOk 1; EvOk a; EvOk 1; EvOk 1; EvOk a; EvOk 5; EvFail 9; EvOk a].
Example C85_example :
  same_failures (same_orc 7) (same_orc 70) /\
  runs (list_thread lcD Nat.ltb 2 same_ops) (lw0 (same_orc 7)) (fun r _ => r = ([None; Some (EElem 9); None; None], [[1; 2; 3]; [3; 1]])) /\
  runs (list_thread lcD Nat.ltb 2 same_ops) (lw1 (same_orc 70)) (fun r _ => r = ([None; Some (EElem 9); None; None], [[1; 2; 3]; [3; 1]])).
Proof.
  split_and!; [|by compute_run..].
  intros k c. unfold same_orc. do 11 (destruct k as [|k]; [simpl; split; intros; simplify_eq; done|]). done.
Qed.
