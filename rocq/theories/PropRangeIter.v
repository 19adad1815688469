(** * C76, with a range of iterators of a set

    [insert_unique_nodes cf comp o first last] (RbIter.v) reads the range through
    its iterators while it inserts.  [hv2] is the memory of a set [o2], with any
    order and any allocator; the range is its elements number [i] to [i + n]. *)
From Verif Require Import RbIter PropSet PropRange.

Lemma own_targs {V} (comp : V -> V -> bool) al hdr (ys : list (addr * V)) hv2 hf i n :
  set_own comp al hdr ys hv2 ->
  Forall2 (targ_is [] (hv2 ∪ hf)) (TARef <$> (take n (drop i ys)).*1) (take n (drop i ys)).*2.
Proof.
  intros Ho. assert (set_is comp (TSet al hdr) ys ∅ (World hv2 [] None 0 0)) as [t Hs]%set_is_sin.
  { exists hv2. split; [done|]. split; [by rewrite (right_id_L ∅ (∪))|apply map_disjoint_empty_r]. }
  rewrite <-list_fmap_compose. apply Forall2_fmap_2, Forall_Forall2_diag, Forall_forall. intros [a v] Hin. right.
  apply elem_of_take in Hin as (j & Hj & _). rewrite lookup_drop in Hj.
  destruct (RbHist.sin_cell comp _ _ _ _ _ _ _ _ Hs Hj) as (c & al' & Hc & Hb). exists c, al'. split; [|done].
  by apply lookup_union_Some_l.
Qed.

(** From another set: as C76_insert_range, and the other set and the rest of the
    memory, [hv2 ∪ hf], stay as they are. *)
Theorem C76_insert_nodes V (cf : cfg V) comp comp2 o xs o2 ys hv2 hf w i n :
  swo comp -> set_is comp o xs (hv2 ∪ hf) w -> set_own comp2 (t_alloc o2) (t_hdr o2) ys hv2 -> hv2 ##ₘ hf ->
  w_err w = None -> i + n <= length ys ->
  let vs := (take n (drop i ys)).*2 in
  runs (insert_unique_nodes cf comp o (tpos (t_hdr o2) ys i) (tpos (t_hdr o2) ys (i + n))) w (fun _ w' =>
    exists zs m, set_is comp o zs (hv2 ∪ hf) w' /\ xs `sublist_of` zs /\
      (forall p, p ∈ zs -> p ∈ xs \/
         ((forall q, q ∈ xs -> ~ equivalent comp q.2 p.2) /\
          exists i, i < m /\ vs !! i = Some p.2 /\ forall j u, j < i -> vs !! j = Some u -> ~ equivalent comp u p.2)) /\
      (forall i v, i < m -> vs !! i = Some v -> exists p, p ∈ zs /\ equivalent comp p.2 v) /\
      ((m = length vs /\ w_err w' = None /\
        w_allocs w' = w_allocs w + (length zs - length xs) /\ w_ctors w' = w_ctors w + (length zs - length xs)) \/
       (m < length vs /\ exists e, w_err w' = Some e /\ tnode_error cf e))).
Proof.
  intros Hswo Hs Ho2 Hd He Hi vs. unfold insert_unique_nodes. rbind. apply runs_cell_fuel.
  eapply insert_nodes_same; [done|exact Hs|exact Ho2|done|done|done| |].
  - destruct (set_beside _ _ _ _ _ _ _ _ _ Hs Ho2 Hd) as (hf2 & [t2 Hs2]%set_is_sin).
    destruct Hs2 as (Ht & Hel & _). pose proof (fuel_bound _ _ _ _ _ _ _ _ Ht). rewrite Hel in *. lia.
  - eapply C76_insert_range; [done|exact Hs|by eapply own_targs|done].
Qed.
Print Assumptions C76_insert_nodes.

(** t.insert(s.begin(), s.end()) makes t the union of t and s: if it succeeds,
    a value is then in t if and only if it was in t or is in s. *)
Theorem C76_union V (cf : cfg V) comp comp2 o xs o2 ys hv2 hf w :
  swo comp -> set_is comp o xs (hv2 ∪ hf) w -> set_own comp2 (t_alloc o2) (t_hdr o2) ys hv2 -> hv2 ##ₘ hf ->
  w_err w = None ->
  runs (let! b := t_begin o2 in insert_unique_nodes cf comp o b (t_end o2)) w (fun _ w' =>
    exists zs, set_is comp o zs (hv2 ∪ hf) w' /\ xs `sublist_of` zs /\
      (forall v, (exists p, p ∈ zs /\ equivalent comp p.2 v) ->
         (exists p, p ∈ xs /\ equivalent comp p.2 v) \/ (exists p, p ∈ ys /\ equivalent comp p.2 v)) /\
      match w_err w' with
      | None => forall v, (exists p, p ∈ ys /\ equivalent comp p.2 v) -> exists p, p ∈ zs /\ equivalent comp p.2 v
      | Some e => tnode_error cf e
      end).
Proof.
  intros Hswo Hs Ho2 Hd He. destruct (set_beside _ _ _ _ _ _ _ _ _ Hs Ho2 Hd) as (hf2 & [t2 Hs2]%set_is_sin).
  rbind. eapply (begin_spec comp2); [exact Hs2|].
  pose proof (C76_insert_nodes V cf comp comp2 o xs o2 ys hv2 hf w 0 (length ys) Hswo Hs Ho2 Hd He (le_n _)) as Hr.
  simpl in Hr. rewrite (tpos_end _ _ (length ys)) in Hr by lia. rewrite drop_0, firstn_all in Hr.
  eapply runs_mono; [exact Hr|]. intros _ w' (zs & m & Hz & Hsub & Hin & Hall & Hend). exists zs. split; [done|]. split; [done|]. split.
  - intros v (p & Hp & Hv). destruct (Hin p Hp) as [?|(_ & k & _ & Hk & _)]; [left; eauto|right].
    rewrite list_lookup_fmap in Hk. destruct (ys !! k) as [q|] eqn:Eq; [|done]. injection Hk as Hk. exists q. split; [by eapply elem_of_list_lookup_2|].
    by rewrite Hk.
  - destruct Hend as [(-> & -> & _)|(_ & e & -> & ?)]; [|done]. intros v (q & [k Hk]%elem_of_list_lookup & Hv).
    destruct (Hall k q.2) as (p & Hp & Hpe); [rewrite fmap_length; by eapply lookup_lt_Some|by rewrite list_lookup_fmap, Hk|].
    exists p. split; [done|]. by eapply equivalent_trans.
Qed.
Print Assumptions C76_union.

(** A range of the set itself: nothing happens. *)
Theorem C76_own_range V (cf : cfg V) comp o xs hf w i n :
  swo comp -> set_is comp o xs hf w -> w_err w = None -> i + n <= length xs ->
  insert_unique_nodes cf comp o (tpos (t_hdr o) xs i) (tpos (t_hdr o) xs (i + n)) w = Done tt w.
Proof.
  intros Hswo Hs He Hi. unfold insert_unique_nodes, bind, cell_fuel, bind, get_heap, ret.
  eapply insert_own_nodes; [done|exact Hs|done|done|]. apply set_is_sin in Hs as (t & Ht & Hel & _).
  pose proof (fuel_bound _ _ _ _ _ _ _ _ Ht). rewrite Hel in *. lia.
Qed.
Print Assumptions C76_own_range.

(** 7 15 50 into 5 10 15 20 30 40 *)
Example C76_nodes_example :
  set_is nat_lt exO exX (exH2 ∪ ∅) (tw2 []) /\ set_own nat_lt (t_alloc exO2) (t_hdr exO2) exX2 exH2 /\ exH2 ##ₘ ∅ /\
  runs (do! insert_unique_nodes tcD nat_lt exO (tpos 20 exX2 0) (tpos 20 exX2 3) in
        let! l := t_walk exO in let! l2 := t_walk exO2 in ret (l, l2)) (tw2 []) (fun r w' =>
    r = ([5; 7; 10; 15; 20; 30; 40; 50], [7; 15; 50]) /\ w_allocs w' = 2 /\ w_err w' = None) /\
  runs (do! insert_unique_nodes tcD nat_lt exO (tpos 20 exX2 0) (tpos 20 exX2 3) in t_walk exO) (tw2 [EvOk 51; EvOk 1; EvFail 0]) (fun l w' =>
    l = [5; 7; 10; 15; 20; 30; 40] /\ w_err w' = Some EBadAlloc) /\
  runs (do! insert_unique_nodes tcD nat_lt exO (tpos 1 exX 1) (tpos 1 exX 6) in t_walk exO) (tw2 []) (fun l w' =>
    l = [5; 10; 15; 20; 30; 40] /\ w_allocs w' = 0).
Proof.
  split; [rewrite (right_id_L ∅ (∪)); apply ex_set2|]. split; [apply ex_own2|]. split; [apply map_disjoint_empty_r|].
  split; [compute_run|]. split; compute_run.
Qed.
