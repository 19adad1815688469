(** * C84: ranges of any iterators

    [runs_over it h pos vs] (IterSpec.v): in the memory [h], the iterators
    [pos 0], [pos 1], ... run over the values [vs].  First, those of the containers
    do.  Then, what the functions that take a range do with a part [pos i, pos j) of
    any such sequence.  [runs2 m w h Q] includes that the memory [h] of the range is
    not changed. *)
From Verif Require Import VecExtra ListExtra RbExtra AlgoProofs IterProofs PropVector PropList PropSet PropRange PropAlgo.

(** ** The iterators of the containers *)

(** the iterators of a list, from begin() to end() *)
Theorem C84_list_iterators V (cf : cfg V) al hdr xs R hv hf :
  lists_own al ((hdr, xs) :: R) hv -> hv ##ₘ hf -> runs_over (list_iter cf) (hv ∪ hf) (lpos hdr xs) xs.*2.
Proof.
  intros Ho Hd.
  assert (Hh : forall w, w_heap w = hv ∪ hf -> heap_is w hv hf) by (intros w Hw; by split).
  assert (Hin : forall i, lpos hdr xs i ∈ list_addrs ((hdr, xs) :: R)).
  { intros i. rewrite lpos_hdx. rewrite <-(take_drop i xs) at 2. apply ListOps.hdx_in. }
  assert (Hnd : NoDup (xs.*1 ++ [hdr])).
  { destruct Ho as (Hn & _). unfold list_addrs in Hn. simpl in Hn.
    rewrite (Permutation_app_comm xs.*1). simpl. rewrite app_comm_cons in Hn. by apply NoDup_app in Hn as [? _]. }
  assert (Hpos : forall i, i <= length xs -> (xs.*1 ++ [hdr]) !! i = Some (lpos hdr xs i)).
  { intros i Hi. unfold lpos. destruct (decide (i = length xs)) as [->|].
    - rewrite lookup_app_r by (by rewrite fmap_length). rewrite fmap_length, Nat.sub_diag. simpl.
      rewrite lookup_ge_None_2; [done|]. by rewrite fmap_length.
    - assert (i < length (xs.*1)) as Hlt by (rewrite fmap_length; lia). rewrite lookup_app_l by done.
      apply lookup_lt_is_Some in Hlt as [a Ha]. by rewrite Ha. }
  split; rewrite ?fmap_length; simpl.
  - intros i j Hi Hj. apply returns_runs. intros w Q Hw HQ. rbind.
    eapply ListOps.runs_it_eq; [by apply Hh|exact Ho|apply Hin|apply Hin|]. apply runs_ret.
    assert (negb (bool_decide (lpos hdr xs i = lpos hdr xs j)) = bool_decide (i <> j)) as ->; [|done].
    rewrite <-bool_decide_not. apply bool_decide_ext. split; intros Hn He; apply Hn; [by rewrite He|].
    eapply NoDup_lookup; [exact Hnd|by apply Hpos|]. rewrite He. by apply Hpos.
  - intros i x Hx. apply returns_runs. intros w Q Hw HQ. rewrite list_lookup_fmap in Hx.
    destruct (xs !! i) as [[a v]|] eqn:Ei; [|done]. injection Hx as ->.
    rewrite lpos_hdx, (drop_S _ _ _ Ei). simpl. eapply ListOps.runs_deref; [by apply Hh| |exact HQ].
    rewrite <-(take_drop i xs), (drop_S _ _ _ Ei) in Ho. exact Ho.
  - intros i Hi. apply returns_runs. intros w Q Hw HQ. destruct (lookup_lt_is_Some_2 xs i Hi) as [[a v] Ei].
    rewrite lpos_hdx, (drop_S _ _ _ Ei). simpl.
    eapply ListOps.runs_it_inc; [by apply Hh| |by rewrite lpos_hdx in HQ].
    rewrite <-(take_drop i xs), (drop_S _ _ _ Ei) in Ho. exact Ho.
  - intros i Hi. apply returns_runs. intros w Q Hw HQ. rewrite (lpos_hdx _ _ (S i)).
    destruct (lookup_lt_is_Some_2 xs i Hi) as [[a v] Ei].
    eapply (ListOps.runs_it_dec cf w al hdr (take (S i) xs)); [by apply Hh|rewrite take_drop; exact Ho|].
    rewrite (take_S_r _ _ _ Ei), fmap_app. simpl. rewrite lastd_snoc. unfold lpos in HQ. by rewrite list_lookup_fmap, Ei in HQ.
  - done.
Qed.
Print Assumptions C84_list_iterators.

(** the iterators of a set: in ascending order *)
Theorem C84_set_iterators V (comp : V -> V -> bool) al hdr xs hv hf :
  set_own comp al hdr xs hv -> hv ##ₘ hf -> runs_over tree_iter (hv ∪ hf) (tpos hdr xs) xs.*2 /\ ascending comp xs.*2.
Proof.
  intros Ho Hd. split; [|by destruct Ho].
  assert (Hs : forall w : world (tcell V), w_heap w = hv ∪ hf -> exists t, sin comp (TSet al hdr) xs (w_heap w) hf t).
  { intros w Hw. apply set_is_sin. exists hv. by split. }
  split; rewrite ?fmap_length; simpl.
  - intros i j Hi Hj w Hw. unfold ret. do 2 f_equal. apply bool_decide_ext. destruct (Hs w Hw) as (t & Ht).
    pose proof (sin_nodup _ _ _ _ _ _ Ht) as Hn.
    split; intros Hne He; apply Hne; [by rewrite He|]. by apply (RbQuery.tpos_inj (TSet al hdr) xs).
  - intros i x Hx. apply returns_runs. intros w Q Hw HQ. rewrite list_lookup_fmap in Hx.
    destruct (xs !! i) as [[a v]|] eqn:Ei; [|done]. injection Hx as ->. destruct (Hs w Hw) as (t & Ht).
    erewrite RbSet.tpos_some by done. by eapply (RbHist.tread_spec comp).
  - intros i Hi. apply returns_runs. intros w Q Hw HQ. destruct (Hs w Hw) as (t & Ht). by eapply (RbSet.runs_inc comp (TSet al hdr)).
  - intros i Hi. apply returns_runs. intros w Q Hw HQ. destruct (Hs w Hw) as (t & Ht). by eapply (RbSet.runs_dec comp (TSet al hdr)).
  - done.
Qed.
Print Assumptions C84_set_iterators.

(** the iterators of a vector, and pointers into an array *)
Theorem C84_vector_iterators V (cf : cfg V) v l cap hv hf :
  vec_owns cf v l cap hv -> hv ##ₘ hf -> runs_over ptr_iter (hv ∪ hf) (vec_pos v) l.
Proof.
  intros [(Hs & _ & _ & -> & _)|(b & Hs & _ & _ & Hl & _ & ->)] Hd; unfold vec_pos; rewrite Hs.
  - split; simpl.
    + intros i j Hi Hj w _. assert (i = j) as -> by lia. unfold ret. do 2 f_equal. rewrite !bool_decide_eq_false_2; [done|tauto..].
    + done.
    + lia.
    + lia.
    + intros d i j Hdd Hij Hj w _. injection Hdd as <-. simpl. by replace (j - i) with 0 by lia.
  - apply (array_over _ b 0). split.
    + exists (Block (m_allocator v) cap cap (map_seq 0 l)). rewrite lookup_union_Some by done. split; [left; by rewrite lookup_singleton|simpl; lia].
    + intros k x Hk. unfold slot. erewrite (lookup_union_Some_l _ _ b) by (by rewrite lookup_singleton). simpl. by rewrite lookup_map_seq_0.
Qed.
Print Assumptions C84_vector_iterators.
Theorem C84_pointers V (h : gmap addr (vblock V)) b o vs :
  objs h b o vs -> runs_over ptr_iter h (fun i => Ptr b (o + i)) vs.
Proof. apply array_over. Qed.
Print Assumptions C84_pointers.

(** The reverse iterators of any sequence run over it backwards, from rbegin()
    to rend(). *)
Theorem C84_reverse_iterators C V I (it : iterator C V I) h pos vs :
  runs_over it h pos vs -> runs_over (rev_iter it) h (fun i => pos (length vs - i)) (reverse vs).
Proof. apply rev_over. Qed.
Print Assumptions C84_reverse_iterators.

(** ** The containers *)

Lemma vals_in {V} (ls : list (addr * list (addr * V))) hf xs : Forall2 (arg_in ls hf) (LAVal <$> xs) xs.
Proof. apply Forall2_fmap_l, Forall_Forall2_diag, Forall_forall. done. Qed.

(** v.assign(first, last).  Random access iterators have the size computed
    beforehand; it must be below the number of bytes there can be. *)
Theorem C84_vector_assign C V I (cf : cfg V) (it : iterator C V I) h pos vs fuel v l cap hv hf i j w :
  runs_over it h pos vs -> i <= j -> j <= length vs -> j - i < fuel ->
  cfg_ok cf -> vec_owns cf v l cap hv -> heap_is w hv hf -> w_err w = None ->
  (i_dist it <> None -> bytes_fit cf (j - i)) ->
  runs2 (vec_assign_it cf it fuel v (pos i) (pos j)) w h (fun v' w' => exists k cap' hv',
    vec_owns cf v' (take k (drop i vs)) cap' hv' /\ heap_is w' hv' hf /\
    match w_err w' with None => k = j - i | Some _ => k < j - i \/ i = j /\ k = 0 end).
Proof.
  intros Hov Hij Hj Hf Hcf Ho Hh He Hb. eapply runs_vec_assign_it; try done.
  intros v' cap' hv' w' k Hk Ho' Hh' [(-> & ->)|(e & -> & ?)]; eexists _, _, _; split_and!; try done; lia.
Qed.
Print Assumptions C84_vector_assign.

(** l.assign(first, last) *)
Theorem C84_list_assign C V I (cf : cfg V) (it : iterator C V I) h pos vs fuel al hdr xs R hv hf i j w :
  runs_over it h pos vs -> i <= j -> j <= length vs -> j - i < fuel -> al = c_dflt cf \/ xs = [] ->
  lists_own al ((hdr, xs) :: R) hv -> heap_is w hv hf -> w_err w = None ->
  runs2 (lst_assign_it cf it fuel (Lst al hdr) (pos i) (pos j)) w h (fun _ w' =>
    exists xs', lists_are al ((hdr, xs') :: R) hf w' /\
      match w_err w' with
      | None => xs'.*2 = take (j - i) (drop i vs)
      | Some e => node_error cf e /\ exists k, k < j - i /\ xs'.*2 = take k (drop i vs)
      end).
Proof.
  intros Hov Hij Hj Hf Hal Ho Hh He.
  assert (Hlen : length (take (j - i) (drop i vs)) = j - i) by (rewrite take_length, drop_length; lia).
  eapply runs2_beside; [by apply lst_assign_it_eq|].
  eapply runs_mono; [by eapply (C26_assign_range V cf al hdr xs R hv hf w _ (take (j - i) (drop i vs))); [..|apply vals_in]|].
  intros _ w' (zs & Hl & Hz). exists zs. split; [done|]. destruct (w_err w'); [|done].
  destruct Hz as (? & k & Hk & Hz). split; [done|]. exists k. rewrite Hlen in Hk. split; [done|].
  by rewrite Hz, take_take, Nat.min_l by lia.
Qed.
Print Assumptions C84_list_assign.

(** l.insert(position, first, last): the values arrive in reverse order, as in C20 *)
Theorem C20_insert_any_partial C V I (cf : cfg V) (it : iterator C V I) h pos vs fuel al hdr xs R hv hf p i j w :
  runs_over it h pos vs -> i <= j -> j <= length vs -> j - i < fuel ->
  lists_own al ((hdr, xs) :: R) hv -> heap_is w hv hf -> w_err w = None ->
  runs2 (lst_insert_it cf it fuel (Lst al hdr) (lpos hdr xs p) (pos i) (pos j)) w h (fun _ w' =>
    exists m, lists_are al ((hdr, take p xs ++ m ++ drop p xs) :: R) hf w' /\
      match w_err w' with
      | None => m.*2 = reverse (take (j - i) (drop i vs))
      | Some e => node_error cf e /\ exists k, k < j - i /\ m.*2 = reverse (take k (drop i vs))
      end).
Proof.
  intros Hov Hij Hj Hf Ho Hh He.
  assert (Hlen : length (take (j - i) (drop i vs)) = j - i) by (rewrite take_length, drop_length; lia).
  eapply runs2_beside; [by apply lst_insert_it_eq|].
  eapply runs_mono; [by eapply (C20_insert_range_partial V cf al hdr xs R hv hf w p _ (take (j - i) (drop i vs))); [..|apply vals_in]|].
  intros _ w' (m & Hl & Hm). exists m. split; [done|]. destruct (w_err w'); [|by destruct Hm].
  destruct Hm as (? & k & Hk & Hm). split; [done|]. exists k. rewrite Hlen in Hk. split; [done|].
  by rewrite Hm, take_take, Nat.min_l by lia.
Qed.
Print Assumptions C20_insert_any_partial.

(** t.insert_unique(first, last) *)
Theorem C84_tree_insert C V I (cf : cfg V) (it : iterator C V I) h pos vs fuel comp o xs hf i j w :
  runs_over it h pos vs -> i <= j -> j <= length vs -> j - i < fuel ->
  swo comp -> set_is comp o xs hf w -> w_err w = None ->
  runs2 (tree_insert_it cf it comp fuel o (pos i) (pos j)) w h (fun _ w' =>
    exists ys m, m <= j - i /\ set_is comp o ys hf w' /\ xs `sublist_of` ys /\
      (* what is new was in the range, and nothing equivalent in the set *)
      (forall p, p ∈ ys -> p ∈ xs \/
         (forall q, q ∈ xs -> ~ equivalent comp q.2 p.2) /\ p.2 ∈ take m (drop i vs)) /\
      (* everything in the range is now in the set, up to equivalence *)
      (forall v, v ∈ take m (drop i vs) -> exists p, p ∈ ys /\ equivalent comp p.2 v) /\
      match w_err w' with None => m = j - i | Some e => m < j - i /\ tnode_error cf e end).
Proof.
  intros Hov Hij Hj Hf Hswo Hs He.
  assert (Hlen : length (take (j - i) (drop i vs)) = j - i) by (rewrite take_length, drop_length; lia).
  eapply runs2_beside; [by apply tree_insert_it_eq|].
  eapply runs_mono; [eapply (C76_insert_range V cf comp o _ (take (j - i) (drop i vs))); [done|exact Hs| |done]|].
  { apply Forall2_fmap_l, Forall_Forall2_diag, Forall_forall. done. }
  intros _ w' (ys & m & Hy & Hsub & Hin & Hall & Hend). rewrite Hlen in Hend.
  assert (Hm : m <= j - i) by (destruct Hend as [(-> & _)|(? & _)]; lia).
  exists ys, m. split; [done|]. split; [done|]. split; [done|]. split; [|split].
  - intros p Hp. destruct (Hin p Hp) as [?|(Hno & k & Hk & Hv & _)]; [by left|]. right. split; [done|].
    apply elem_of_list_lookup. exists k. rewrite lookup_take in Hv by lia. by rewrite lookup_take.
  - intros v (k & Hv & Hk)%elem_of_take. apply (Hall k); [done|]. by rewrite lookup_take by lia.
  - destruct Hend as [(-> & -> & _)|(? & e & -> & ?)]; done.
Qed.
Print Assumptions C84_tree_insert.

(** ** The algorithms *)

(** nestl::copy_if and nestl::copy into an array *)
Theorem C84_copy_if C V I (cf : cfg V) torn (it : iterator C V I) h pos vs fuel pred i j bd d ds w :
  let sel := List.filter pred (take (j - i) (drop i vs)) in
  runs_over it h pos vs -> i <= j -> j <= length vs -> j - i < fuel ->
  objs (w_heap w) bd d ds -> length ds = length sel -> w_err w = None ->
  runs2 (copy_if_it cf it torn pred fuel (pos i) (pos j) (Ptr bd d)) w h (fun r w' =>
    match w_err w' with
    | None => r = Ptr bd (d + length sel) /\ stored (w_heap w) (w_heap w') bd d sel
    | Some e => exists k x code, k < length sel /\ r = Ptr bd (d + k) /\ e = EElem code /\ c_kind cf <> Nothrow /\
        stored (w_heap w) (w_heap w') bd d (take k sel ++ [x])
    end).
Proof.
  intros sel Hov Hij Hj Hf Hd Hl He.
  pose proof (runs_copy_if_it cf torn it h pos vs Hov pred fuel i j bd d (w_heap w) [] w) as Hc. simpl in Hc. rewrite Nat.add_0_r in Hc.
  apply Hc; clear Hc; try done.
  - destruct Hd as [(blk & ? & ?) _]. exists blk. split; [done|]. fold sel. lia.
  - intros k Hk. fold sel in Hk. destruct (lookup_lt_is_Some_2 ds k) as [v Hv]; [lia|]. exists v. by apply Hd.
  - apply stored_refl.
  - intros w' Hs ->. done.
  - intros w' k x code Hk Hn -> Hs. exists k, x, code. done.
Qed.
Print Assumptions C84_copy_if.
Theorem C84_copy C V I (cf : cfg V) torn (it : iterator C V I) h pos vs fuel i j bd d ds w :
  runs_over it h pos vs -> i <= j -> j <= length vs -> j - i < fuel ->
  objs (w_heap w) bd d ds -> length ds = j - i -> w_err w = None ->
  runs2 (copy_it cf it torn fuel (pos i) (pos j) (Ptr bd d)) w h (fun r w' =>
    match w_err w' with
    | None => r = Ptr bd (d + (j - i)) /\ stored (w_heap w) (w_heap w') bd d (take (j - i) (drop i vs))
    | Some e => exists k x code, k < j - i /\ r = Ptr bd (d + k) /\ e = EElem code /\ c_kind cf <> Nothrow /\
        stored (w_heap w) (w_heap w') bd d (take k (drop i vs) ++ [x])
    end).
Proof.
  intros Hov Hij Hj Hf Hd Hl He.
  assert (Hlen : length (take (j - i) (drop i vs)) = j - i) by (rewrite take_length, drop_length; lia).
  pose proof (C84_copy_if C V I cf torn it h pos vs fuel (fun _ => true) i j bd d ds w) as Hc. cbv zeta in Hc.
  rewrite filter_all_true, Hlen in Hc. unfold runs2. erewrite copy_it_if by done.
  eapply runs2_mono; [by apply Hc|]. simpl. intros r w' Hr. destruct (w_err w'); [|done].
  destruct Hr as (k & x & code & Hk & ? & ? & ? & Hs). exists k, x, code. split_and!; try done.
  by rewrite take_take, Nat.min_l in Hs by lia.
Qed.
Print Assumptions C84_copy.

(** nestl::equal: two ranges of any kinds *)
Theorem C84_equal C1 C2 V I1 I2 (it1 : iterator C1 V I1) (it2 : iterator C2 V I2) w h p1 p2 l r (p : V -> V -> bool) fuel i1 j1 i2 :
  runs_over it1 (w_heap w) p1 l -> runs_over it2 h p2 r ->
  i1 <= j1 -> j1 <= length l -> i2 + (j1 - i1) <= length r -> j1 - i1 < fuel ->
  runs2 (equal_it it1 it2 p fuel (p1 i1) (p1 j1) (p2 i2)) w h (fun b w' =>
    w' = w /\ (b = true <-> Forall2 (fun x y => p x y = true) (take (j1 - i1) (drop i1 l)) (take (j1 - i1) (drop i2 r)))).
Proof.
  intros H1 H2 Hi Hj Hr Hf. eapply runs_equal_it; try done. split; [done|].
  assert (length (take (j1 - i1) (drop i1 l)) = length (take (j1 - i1) (drop i2 r))) as Hl
    by (rewrite !take_length, !drop_length; lia).
  revert Hl. generalize (take (j1 - i1) (drop i1 l)) (take (j1 - i1) (drop i2 r)). clear. intros l.
  induction l as [|x l IH]; intros [|y r] Hl; simpl in Hl; [|lia|lia|]; simpl.
  - split; [intros _; constructor|done].
  - rewrite andb_true_iff, IH by lia. by rewrite Forall2_cons.
Qed.
Print Assumptions C84_equal.

(** nestl::lexicographical_compare *)
Theorem C84_lexicographical_compare C1 C2 V I1 I2 (it1 : iterator C1 V I1) (it2 : iterator C2 V I2) w h p1 p2 l r (comp : V -> V -> bool) fuel i1 j1 i2 j2 :
  runs_over it1 (w_heap w) p1 l -> runs_over it2 h p2 r ->
  i1 <= j1 -> j1 <= length l -> i2 <= j2 -> j2 <= length r -> j1 - i1 < fuel ->
  runs2 (lex_it it1 it2 comp fuel (p1 i1) (p1 j1) (p2 i2) (p2 j2)) w h (fun b w' =>
    w' = w /\ (b = true <-> lex_less comp (take (j1 - i1) (drop i1 l)) (take (j2 - i2) (drop i2 r)))).
Proof.
  intros H1 H2 Hi Hj Hi2 Hj2 Hf. eapply runs_lex_it; try done. split; [done|]. apply lexb_lex.
Qed.
Print Assumptions C84_lexicographical_compare.

(** ** From one kind of container into another *)

Lemma take_prefix {A} (l : list A) k : take k l `prefix_of` l.
Proof. exists (drop k l). by rewrite take_drop. Qed.
Lemma ascending_take {V} (comp : V -> V -> bool) l k : ascending comp l -> ascending comp (take k l).
Proof. intros Ha i j x y Hij Hx Hy. apply lookup_take_Some in Hx as [Hx _], Hy as [Hy _]. by eapply Ha. Qed.
Lemma ascending_reverse {V} (comp : V -> V -> bool) l : ascending comp l -> ascending (flip comp) (reverse l).
Proof.
  intros Ha i j x y Hij Hx Hy. pose proof (lookup_lt_Some _ _ _ Hx) as Hi. pose proof (lookup_lt_Some _ _ _ Hy) as Hj.
  rewrite reverse_length in Hi, Hj. rewrite reverse_lookup in Hx by done. rewrite reverse_lookup in Hy by done.
  eapply (Ha _ _ y x); [|done|done]. lia.
Qed.

(** v.assign(s.begin(), s.end()) makes v the ascending sequence of the elements
    of the set s; v.assign(s.rbegin(), s.rend()) the descending one. *)
Theorem C84_set_to_vector V (cf : cfg V) comp al hdr xs hv2 hf2 fuel v l cap hv hf w :
  set_own comp al hdr xs hv2 -> hv2 ##ₘ hf2 -> length xs < fuel ->
  cfg_ok cf -> vec_owns cf v l cap hv -> heap_is w hv hf -> w_err w = None ->
  runs2 (vec_assign_it cf tree_iter fuel v (tpos hdr xs 0) hdr) w (hv2 ∪ hf2) (fun v' w' => exists l' cap' hv',
    vec_owns cf v' l' cap' hv' /\ heap_is w' hv' hf /\ ascending comp l' /\ l' `prefix_of` xs.*2 /\ (w_err w' = None -> l' = xs.*2)) /\
  runs2 (vec_assign_it cf (rev_iter tree_iter) fuel v hdr (tpos hdr xs 0)) w (hv2 ∪ hf2) (fun v' w' => exists l' cap' hv',
    vec_owns cf v' l' cap' hv' /\ heap_is w' hv' hf /\ ascending (flip comp) l' /\ l' `prefix_of` reverse xs.*2 /\ (w_err w' = None -> l' = reverse xs.*2)).
Proof.
  intros Hs Hd2 Hf Hcf Ho Hh He. destruct (C84_set_iterators V comp al hdr xs hv2 hf2 Hs Hd2) as [Hov Hasc]. split.
  - assert (hdr = tpos hdr xs (length xs)) as E by (by rewrite tpos_end). rewrite E at 2.
    eapply runs2_mono; [eapply (C84_vector_assign _ _ _ cf _ _ _ _ fuel v l cap hv hf 0 (length xs) w Hov); try done; rewrite ?fmap_length; lia|].
    intros v' w' (k & cap' & hv' & Ho' & Hh' & Hk). rewrite drop_0 in Ho'. exists (take k xs.*2), cap', hv'. split_and!; try done.
    + by apply ascending_take.
    + apply take_prefix.
    + intros E'. rewrite E' in Hk. rewrite Hk. apply take_ge. rewrite fmap_length. lia.
  - pose proof (C84_reverse_iterators _ _ _ _ _ _ _ Hov) as Hrev. apply ascending_reverse in Hasc.
    pose proof (C84_vector_assign _ _ _ cf _ _ _ _ fuel v l cap hv hf 0 (length xs) w Hrev) as Hr.
    cbv beta in Hr. rewrite reverse_length, fmap_length, Nat.sub_0_r, Nat.sub_diag, (tpos_end _ _ (length xs)) in Hr by done.
    eapply runs2_mono; [eapply Hr; try done; lia|].
    intros v' w' (k & cap' & hv' & Ho' & Hh' & Hk). rewrite drop_0 in Ho'. exists (take k (reverse xs.*2)), cap', hv'. split_and!; try done.
    + by apply ascending_take.
    + apply take_prefix.
    + intros E'. rewrite E' in Hk. rewrite Hk. apply take_ge. rewrite reverse_length, fmap_length. lia.
Qed.
Print Assumptions C84_set_to_vector.

(** l.assign(v.begin(), v.end()) makes l the sequence of the elements of the
    vector v; its iterators then run over the same values *)
Theorem C84_vector_to_list V (cf : cfg V) v l cap hv2 hf2 fuel al hdr xs R hv hf w :
  vec_owns cf v l cap hv2 -> hv2 ##ₘ hf2 -> length l < fuel -> al = c_dflt cf \/ xs = [] ->
  lists_own al ((hdr, xs) :: R) hv -> heap_is w hv hf -> w_err w = None ->
  runs2 (lst_assign_it cf ptr_iter fuel (Lst al hdr) (m_start v) (m_finish v)) w (hv2 ∪ hf2) (fun _ w' =>
    exists ys hv', lists_own al ((hdr, ys) :: R) hv' /\ heap_is w' hv' hf /\ ys.*2 `prefix_of` l /\
      (w_err w' = None -> ys.*2 = l /\ runs_over (list_iter cf) (w_heap w') (lpos hdr ys) l)).
Proof.
  intros Ho2 Hd2 Hf Hal Ho Hh He. pose proof (C84_vector_iterators V cf v l cap hv2 hf2 Ho2 Hd2) as Hov.
  assert (m_start v = vec_pos v 0 /\ m_finish v = vec_pos v (length l)) as [-> ->].
  { unfold vec_pos. destruct Ho2 as [(-> & -> & _)|(b & -> & -> & _)]; done. }
  eapply runs2_mono; [eapply (C84_list_assign _ _ _ cf _ _ _ _ fuel al hdr xs R hv hf 0 (length l) w Hov); try done; lia|].
  intros _ w' (ys & (hv' & Ho' & Hh') & Hy). rewrite drop_0, Nat.sub_0_r, firstn_all in Hy. exists ys, hv'. split_and!; [done..| |].
  - destruct (w_err w'); [|by rewrite Hy]. destruct Hy as (_ & k & _ & ->). apply take_prefix.
  - intros E. rewrite E in Hy. split; [done|]. rewrite <-Hy. destruct Hh' as [-> Hd']. by eapply C84_list_iterators.
Qed.
Print Assumptions C84_vector_to_list.

(** A call with the memory of the range given *)
Definition on_range {C1 C2 A} (m : M2 C1 C2 A) (h : gmap addr C2) : M C1 A := fun w =>
  match m w h with Done2 a w' _ => Done a w' | Fault2 f => Fault f end.

(** The elements of a vector of this address range *)
Definition vec_vals (v : vec_obj) (w : world (vblock nat)) : option (list nat) :=
  match m_start v, m_finish v with
  | Ptr b _, Ptr _ n => mapM (fun i => slot (w_heap w) b i) (seq 0 n)
  | _, _ => Some []
  end.

(** The set 5 10 15 20 30 40, the list 1 2 3 4, the vector 4 5 6 *)
Example C84_example :
  let sh := set_heap_of 0 1 exT in
  let lh := lists_heap 0 ex_ls in
  let v := vec1 [4; 5; 6] 3 in
  (* vector from a set, forwards and backwards; the third push_back fails *)
  runs (on_range (vec_assign_it cfD tree_iter 9 v (tpos 1 exX 0) 1%positive) sh) (world1 [4; 5; 6] 3 []) (fun v' w' =>
    w_err w' = None /\ vec_vals v' w' = Some [5; 10; 15; 20; 30; 40]) /\
  runs (on_range (vec_assign_it cfD (rev_iter tree_iter) 9 v 1%positive (tpos 1 exX 0)) sh) (world1 [4; 5; 6] 3 []) (fun v' w' =>
    w_err w' = None /\ vec_vals v' w' = Some [40; 30; 20; 15; 10; 5]) /\
  runs (on_range (vec_assign_it cfD tree_iter 9 v (tpos 1 exX 1) (tpos 1 exX 5)) sh) (world1 [4; 5; 6] 3 [EvOk 7; EvOk 1; EvOk 8; EvOk 1; EvOk 1; EvFail 4]) (fun v' w' =>
    is_Some (w_err w') /\ vec_vals v' w' = Some [10; 15]) /\
  (* list from a vector, backwards *)
  runs (do! on_range (lst_assign_it lcD (rev_iter ptr_iter) 9 oA (Ptr 1 3) (Ptr 1 1)) (heap1 [4; 5; 6] 3) in lst_walk lcD oA) (lw1 []) (fun l w' =>
    w_err w' = None /\ l = [6; 5]) /\
  (* insert a part of a set in a list: in the wrong order *)
  runs (do! on_range (lst_insert_it lcD tree_iter 9 oA (lpos 1 exA 2) (tpos 1 exX 1) (tpos 1 exX 4)) sh in lst_walk lcD oA) (lw1 []) (fun l w' =>
    w_err w' = None /\ l = [1; 2; 20; 15; 10; 3; 4]) /\
  (* a list into a set *)
  runs (do! on_range (tree_insert_it tcD (list_iter lcD) nat_lt 9 exO (lpos 10 exB 0) 10%positive) lh in t_walk exO) (tw1 []) (fun l w' =>
    w_err w' = None /\ l = [5; 7; 8; 10; 15; 20; 30; 40]) /\
  (* the even elements of a list into an array *)
  runs (on_range (copy_if_it acN (list_iter lcD) (fun _ _ x => x) Nat.even 9 (lpos 1 exA 0) 1%positive (Ptr 1 1)) lh) (world1 [4; 5; 6] 3 []) (fun p w' =>
    p = Ptr 1 3 /\ vec_vals v w' = Some [4; 2; 4]) /\
  (* a vector and a list, a vector and a set *)
  runs (on_range (equal_it ptr_iter (list_iter lcD) Nat.eqb 9 (Ptr 1 0) (Ptr 1 2) (lpos 1 exA 2)) lh) (world1 [3; 4; 6] 3 []) (fun b _ => b = true) /\
  runs (on_range (lex_it ptr_iter tree_iter Nat.ltb 9 (Ptr 1 0) (Ptr 1 2) (tpos 1 exX 0) 1%positive) sh) (world1 [5; 10; 6] 3 []) (fun b _ => b = true) /\
  runs (on_range (lex_it ptr_iter tree_iter Nat.ltb 9 (Ptr 1 0) (Ptr 1 3) (tpos 1 exX 0) (tpos 1 exX 2)) sh) (world1 [5; 10; 6] 3 []) (fun b _ => b = false).
Proof. split_and!; compute_run. Qed.
(** the hypotheses hold of these *)
Example C84_sources :
  runs_over tree_iter (set_heap_of 0 1 exT) (tpos 1 exX) [5; 10; 15; 20; 30; 40] /\
  runs_over (list_iter lcD) (lists_heap 0 ex_ls) (lpos 1 exA) [1; 2; 3; 4] /\
  runs_over (rev_iter ptr_iter) (heap1 [4; 5; 6] 3) (fun i => vec_pos (vec1 [4; 5; 6] 3) (3 - i)) [6; 5; 4].
Proof.
  split_and!.
  - destruct (ex_set []) as (hv & Ho & Hw & Hd). simpl in Hw. rewrite Hw. by apply (C84_set_iterators _ _ _ _ _ _ _ Ho Hd).
  - rewrite <-(right_id_L ∅ (∪) (lists_heap 0 ex_ls)).
    eapply (C84_list_iterators _ _ 0 1%positive exA [(10%positive, exB)]); [|apply map_disjoint_empty_r]. apply own_b_sound. by vm_compute.
  - apply (C84_reverse_iterators _ _ _ ptr_iter _ (vec_pos (vec1 [4; 5; 6] 3)) [4; 5; 6]).
    rewrite <-(right_id_L ∅ (∪) (heap1 [4; 5; 6] 3)).
    eapply (C84_vector_iterators _ cfD _ _ 3); [|apply map_disjoint_empty_r]. apply vec1_owns; [simpl; lia|vm_compute; congruence].
Qed.
