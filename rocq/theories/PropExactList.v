(** * Lists: what happens where a partial theorem stops

    As PropExactVec.v: for every case outside the range of a [_partial]
    theorem of PropList.v, what the code does there.  [stops f m w Q]: [m]
    ends in the undefined behaviour (or failing assertion) [f], or it returns
    and [Q] holds. *)
From Verif Require Import ListExact ListExtra.

Definition xlD : cfg nat := Cfg true 8 (2^62) 0 Direct 0.
Definition xlR : cfg nat := Cfg false 8 (2^62) 0 Direct 0.
Definition xA : list (addr * nat) := [(2%positive, 1); (3%positive, 2); (4%positive, 3); (5%positive, 4)].
Definition xB : list (addr * nat) := [(11%positive, 7); (12%positive, 8)].

Lemma lpos_at3 {V} hdr (l m r : list (addr * V)) : lpos hdr (l ++ m ++ r) (length (l ++ m)) = hdx r.*1 hdr.
Proof. rewrite (assoc_L (++)). apply lpos_app. Qed.
Lemma hdx_ne {V} (x r : list (addr * V)) h : x <> [] -> hdx (x ++ r).*1 h = hdx x.*1 h.
Proof. by destruct x. Qed.

(** ** C22: splice of a range to the position right behind it *)

(** It should change nothing.  With assertions one fails; without, the list
    loses the range: its nodes [hm] are still allocated but no list contains
    them. *)
Theorem C22_splice_range_behind V (cf : cfg V) al hdr l m r R hv hf w :
  lists_own al ((hdr, l ++ m ++ r) :: R) hv -> heap_is w hv hf -> m <> [] ->
  let xs := l ++ m ++ r in
  let call := lst_splice_range cf (lpos hdr xs (length (l ++ m))) (lpos hdr xs (length l)) (lpos hdr xs (length (l ++ m))) in
  if c_dbg cf then call w = Fault FAssert
  else runs call w (fun _ w' => exists hm,
    dom hm = list_to_set m.*1 /\ hm ##ₘ hf /\ lists_are al ((hdr, l ++ r) :: R) (hm ∪ hf) w' /\ no_calls w w').
Proof.
  intros Ho Hh Hm xs call. unfold call, xs. rewrite lpos_at3, lpos_app, hdx_ne by done.
  destruct (c_dbg cf) eqn:Hdbg.
  - by eapply splice_behind_fault.
  - eapply runs_splice_behind; [done..|]. intros hm w' H1 H2 H3 H4. by exists hm.
Qed.
Print Assumptions C22_splice_range_behind.

(** The destructor then leaves the lost nodes behind. *)
Theorem C22_lost_range_leaks V (cf : cfg V) al hdr l m r R hv hf w :
  lists_own al ((hdr, l ++ m ++ r) :: R) hv -> heap_is w hv hf -> m <> [] -> c_dbg cf = false ->
  let xs := l ++ m ++ r in
  runs (do! lst_splice_range cf (lpos hdr xs (length (l ++ m))) (lpos hdr xs (length l)) (lpos hdr xs (length (l ++ m))) in
        lst_destroy (Lst al hdr)) w (fun _ w' => exists hm,
    dom hm = list_to_set m.*1 /\ hm ##ₘ hf /\ lists_are al R (hm ∪ hf) w').
Proof.
  intros Ho Hh Hm Hdbg xs. unfold xs. rewrite lpos_at3, lpos_app, hdx_ne by done.
  rbind. eapply runs_splice_behind; [done..|]. intros hm w' H1 H2 (hv' & Ho' & Hh') H4.
  eapply runs_lst_destroy; [exact Hh'|exact Ho'|by left|]. intros hv2 Ho2 Hh2. exists hm. split; [done|]. split; [done|]. by exists hv2.
Qed.
Print Assumptions C22_lost_range_leaks.

Example C22_behind_example :
  lists_own 0 [(1%positive, xA)] (lists_heap 0 [(1%positive, xA)]) /\
  lst_splice_range xlD 4 2 4 (World (lists_heap 0 [(1%positive, xA)]) [] None 0 0) = Fault FAssert /\
  runs (do! lst_splice_range xlR 4 2 4 in lst_walk xlR (Lst 0 1)) (World (lists_heap 0 [(1%positive, xA)]) [] None 0 0)
    (fun l _ => l = [3; 4]).
Proof. split; [apply own_b_sound; by vm_compute|]. split; [by vm_compute|compute_run]. Qed.

(** ** C26: assign(first, last) from the list's own elements up to its end *)

(** If it does not fail before, it reads the header of a list as an element;
    from an empty range it clears the list. *)
Theorem C26_assign_own_end V (cf : cfg V) al hdr l m R hv hf w :
  al = c_dflt cf -> lists_own al ((hdr, l ++ m) :: R) hv -> heap_is w hv hf -> w_err w = None ->
  let call := lst_assign_nodes cf (Lst al hdr) (lpos hdr (l ++ m) (length l)) (lpos hdr (l ++ m) (length (l ++ m))) in
  (m = [] -> runs call w (fun _ w' => w_err w' = None /\ lists_are al ((hdr, []) :: R) hf w')) /\
  (m <> [] -> stops FRaw call w (fun _ w' => exists e zs k,
    w_err w' = Some e /\ node_error cf e /\ zs.*2 = take k m.*2 /\ lists_are al ((hdr, zs) :: R) hf w')).
Proof.
  intros Hal Ho Hh He call. unfold call. rewrite lpos_app.
  assert (Hend : lpos hdr (l ++ m) (length (l ++ m)) = hdr).
  { unfold lpos. rewrite lookup_ge_None_2; [done|]. by rewrite fmap_length. }
  rewrite Hend. split.
  - intros ->. simpl. eapply runs_assign_at_end; [done|exact Ho|by left|]. intros hv' w' Ho' Hh' He'.
    split; [congruence|]. by exists hv'.
  - intros Hm. eapply stops_assign_to_end; [done|exact Ho|done..|].
    intros k zs hv' w' e Hk Hz Ho' Hh' He' Hne. exists e, zs, k. split_and!; try done. by exists hv'.
Qed.
Print Assumptions C26_assign_own_end.

(** l.copy_nothrow(err, l) *)
Theorem C26_self_copy V (cf : cfg V) al hdr xs R hv hf w :
  al = c_dflt cf -> lists_own al ((hdr, xs) :: R) hv -> heap_is w hv hf -> w_err w = None ->
  (xs = [] -> runs (lst_copy cf (Lst al hdr) (Lst al hdr)) w (fun _ w' => w_err w' = None /\ lists_are al ((hdr, []) :: R) hf w')) /\
  (xs <> [] -> stops FRaw (lst_copy cf (Lst al hdr) (Lst al hdr)) w (fun _ w' => exists e zs k,
    w_err w' = Some e /\ node_error cf e /\ zs.*2 = take k xs.*2 /\ lists_are al ((hdr, zs) :: R) hf w')).
Proof.
  intros Hal Ho Hh He. destruct (C26_assign_own_end V cf al hdr [] xs R hv hf w Hal Ho Hh He) as [H1 H2].
  simpl in H1, H2. unfold lst_copy.
  assert (Hend : lpos hdr xs (length xs) = hdr).
  { unfold lpos. rewrite lookup_ge_None_2; [done|]. by rewrite fmap_length. }
  rewrite Hend in *. pose proof (lpos_app hdr [] xs) as Hb. simpl in Hb. rewrite Hb in *. split.
  - intros Hx. rbind. eapply runs_begin; [done|exact Ho|]. rbind. eapply runs_end; [done|exact Ho|]. by apply H1.
  - intros Hx. sstep. eapply runs_begin; [done|exact Ho|]. sstep. eapply runs_end; [done|exact Ho|]. by apply H2.
Qed.
Print Assumptions C26_self_copy.

Example C26_own_end_example :
  lists_own 0 [(1%positive, xA)] (lists_heap 0 [(1%positive, xA)]) /\
  lst_copy xlD (Lst 0 1) (Lst 0 1) (World (lists_heap 0 [(1%positive, xA)]) [] None 0 0) = Fault FRaw /\
  lst_assign_nodes xlD (Lst 0 1) 4 1 (World (lists_heap 0 [(1%positive, xA)]) [] None 0 0) = Fault FRaw /\
  runs (do! lst_copy xlD (Lst 0 1) (Lst 0 1) in lst_walk xlD (Lst 0 1)) (World (lists_heap 0 [(1%positive, xA)]) [EvOk 20; EvOk 1; EvFail 2] None 0 0)
    (fun l w' => l = [1] /\ w_err w' = Some EBadAlloc).
Proof. split; [apply own_b_sound; by vm_compute|]. split; [by vm_compute|]. split; [by vm_compute|compute_run]. Qed.

(** ** C28: lists with different allocators *)

(** Every assignment to a list that is not empty and whose allocator is not
    equal to a default constructed one gives its nodes to the wrong
    allocator. *)
Theorem C28_assign_unequal V (cf : cfg V) al hdr xs R hv hf w :
  lists_own al ((hdr, xs) :: R) hv -> heap_is w hv hf -> w_err w = None -> xs <> [] -> al <> c_dflt cf ->
  (forall n x v, arg_in ((hdr, xs) :: R) hf x v -> lst_assign_n cf (Lst al hdr) n x w = Fault FAlloc) /\
  (forall ys vs, Forall2 (arg_in ((hdr, xs) :: R) hf) ys vs -> lst_assign_args cf (Lst al hdr) ys w = Fault FAlloc) /\
  (forall h2 l m r, (h2, l ++ m ++ r) ∈ R ->
     lst_assign_nodes cf (Lst al hdr) (lpos h2 (l ++ m ++ r) (length l)) (lpos h2 (l ++ m ++ r) (length (l ++ m))) w = Fault FAlloc) /\
  (forall al2 h2 ys, (h2, ys) ∈ R -> lst_copy cf (Lst al hdr) (Lst al2 h2) w = Fault FAlloc).
Proof.
  intros Ho Hh He Hx Hal. split_and!.
  - intros n x v Hxv. by eapply assign_n_foreign.
  - intros ys vs Hys. by eapply assign_args_foreign.
  - intros h2 l m r Hin. apply elem_of_Permutation in Hin as [R' HR]. rewrite lpos_at3, lpos_app.
    eapply (assign_nodes_foreign cf w al hdr xs h2 l m r R'); [done| |done..]. eapply own_perm; [|exact Ho]. by rewrite HR.
  - intros al2 h2 ys Hin. apply elem_of_Permutation in Hin as [R' HR].
    eapply (copy_foreign cf w al hdr xs h2 ys R'); [done| |done..]. eapply own_perm; [|exact Ho]. by rewrite HR.
Qed.
Print Assumptions C28_assign_unequal.

(** swap of two lists with different allocators exchanges the elements but not
    the allocators: from then on destroying either of them, unless it is
    empty, gives nodes to the wrong allocator. *)
Theorem C28_swap_unequal V (cf : cfg V) al1 h1 xs1 hv1 al2 h2 xs2 hv2 hf w :
  lists_own al1 [(h1, xs1)] hv1 -> lists_own al2 [(h2, xs2)] hv2 -> hv1 ##ₘ hv2 -> heap_is w (hv1 ∪ hv2) hf -> al1 <> al2 ->
  runs (lst_swap cf (Lst al1 h1) (Lst al2 h2)) w (fun _ w' =>
    (exists hv', heap_is w' hv' hf /\ list_shape al2 hv' h1 xs2 /\ list_shape al1 hv' h2 xs1) /\
    (xs2 <> [] -> lst_destroy (Lst al1 h1) w' = Fault FAlloc) /\
    (xs1 <> [] -> lst_destroy (Lst al2 h2) w' = Fault FAlloc)).
Proof.
  intros Ho1 Ho2 Hd Hh Hal. eapply runs_swap_foreign; [done..|]. intros hv' Hh' _ Hs1 Hs2. split_and!.
  - by exists hv'.
  - intros Hx. by eapply destroy_shape_foreign.
  - intros Hx. eapply destroy_shape_foreign; [exact Hh'|exact Hs2|done|congruence].
Qed.
Print Assumptions C28_swap_unequal.

Example C28_unequal_example :
  let h1 := lists_heap 5 [(1%positive, xA)] in let h2 := lists_heap 6 [(10%positive, xB)] in
  let w := World (h1 ∪ h2) [] None 0 0 in
  lists_own 5 [(1%positive, xA)] h1 /\ lists_own 6 [(10%positive, xB)] h2 /\ h1 ##ₘ h2 /\ heap_is w (h1 ∪ h2) ∅ /\
  runs (lst_swap xlD (Lst 5 1) (Lst 6 10)) w (fun _ w' => lst_destroy (Lst 5 1) w' = Fault FAlloc) /\
  lst_assign_n xlD (Lst 5 1) 2 (LAVal 9) (World h1 [] None 0 0) = Fault FAlloc.
Proof.
  cbv zeta. split; [apply own_b_sound; by vm_compute|]. split; [apply own_b_sound; by vm_compute|].
  split; [by apply (bool_decide_unpack _); vm_compute|]. split; [apply heap_all|]. split; [compute_run|by vm_compute].
Qed.
