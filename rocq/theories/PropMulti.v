(** * Properties C64-C66: trees that keep equal values

    Stated over the model (RbMultiModel.v, RbModel.v) with the vocabulary of
    RbMultiSpec.v.  [mset_is comp o xs hf w]: the heap of [w] consists of
    exactly the tree [o] and of [hf]; the elements of the tree are, in order,
    the values [v] in the nodes [a] for the pairs [(a, v)] of [xs], none smaller
    than one in front of it; equal ones are allowed.  [tpos hdr xs i]: the
    iterator to element number [i], end() if there is none. *)
From Verif Require Import RbExtra RbMulti.

(** ** Concrete trees for the examples *)

Definition mcD : cfg nat := Cfg true 8 (2^62) 0 Direct 0.
(** numbers are compared by their tens: 31 and 34 are equal *)
Definition tens (x y : nat) : bool := x / 10 <? y / 10.
Lemma tens_swo : swo tens.
Proof.
  unfold tens. split_and!.
  - intros x. by apply Nat.ltb_irrefl.
  - intros x y z. rewrite !Nat.ltb_lt. lia.
  - intros x y z. rewrite !Nat.ltb_lt. lia.
Qed.
(** the elements 12, 25, 21, 28, 33, 40 with header 1; 21 is the root *)
Definition mxT1 : tree nat :=
  Node Black 2 21 (Node Black 3 25 (Node Red 4 12 Leaf Leaf) Leaf)
                  (Node Black 6 33 (Node Red 5 28 Leaf Leaf) (Node Red 7 40 Leaf Leaf)).
Definition mxO : tset := TSet 0 1.
Definition mxX : list (addr * nat) := elems mxT1.
Definition mw1 (orc : list event) : world (tcell nat) := World (set_heap_of 0 1 mxT1) orc None 0 0.
Lemma mx_is orc : mset_is tens mxO mxX ∅ (mw1 orc).
Proof. apply mset_is_set. apply (good_is (wk tens)). by vm_compute. Qed.
Definition mxT2 : tree nat := Node Black 21 15 (Node Red 22 17 Leaf Leaf) (Node Red 23 50 Leaf Leaf).
Definition mxO2 : tset := TSet 0 20.
Definition mxX2 : list (addr * nat) := elems mxT2.
Definition mxH2 : gmap addr (tcell nat) := set_heap_of 0 20 mxT2.
Definition mw2 (orc : list event) : world (tcell nat) := World (set_heap_of 0 1 mxT1 ∪ mxH2) orc None 0 0.
Lemma mx_own2 : mset_own tens 0 20 mxX2 mxH2.
Proof. apply mset_own_set. apply good_own. by vm_compute. Qed.
Lemma mx_disj : set_heap_of 0 1 mxT1 ##ₘ mxH2.
Proof. apply map_disjoint_dom. apply (bool_decide_eq_true_1 (dom (set_heap_of 0 1 mxT1) ## dom mxH2)). by vm_compute. Qed.
Lemma mx_is2 orc : mset_is tens mxO mxX mxH2 (mw2 orc).
Proof.
  exists (set_heap_of 0 1 mxT1). split; [apply mset_own_set; apply good_own; by vm_compute|]. split; [done|]. apply mx_disj.
Qed.

(** ** C64: insertion *)

Section post.
  Context {V : Type} (cf : cfg V) (comp : V -> V -> bool) (Hswo : swo comp).
  Implicit Types xs : list (addr * V).

  Lemma fits_mpos (k : @ctx V) xs v : xs = cpre k ++ cpost k -> mpos comp k v -> fits comp v xs (length (cpre k)).
  Proof.
    intros -> [H1 H2]. split; [rewrite app_length; lia|]. rewrite take_app, drop_app. done.
  Qed.
  Lemma last_mupper (k : @ctx V) xs v : xs = cpre k ++ cpost k -> mupper comp k v -> last_place comp v xs (length (cpre k)).
  Proof.
    intros Hxs Hup. split; [apply fits_mpos; [done|by apply mupper_mpos]|].
    intros j' Hj'. pose proof (nearest_upper comp v xs (length xs) (length (cpre k))) as Hn.
    assert (length (cpre k) <= length xs) by (rewrite Hxs, app_length; lia).
    specialize (Hn ltac:(lia)). rewrite Hxs, drop_app in Hn. specialize (Hn (proj2 Hup) j'). rewrite <-Hxs in Hn.
    specialize (Hn Hj'). destruct Hj' as [Hj' _]. unfold apart in Hn. lia.
  Qed.
  Lemma first_mlower (k : @ctx V) xs v : xs = cpre k ++ cpost k -> mlower comp k v -> first_place comp v xs (length (cpre k)).
  Proof.
    intros Hxs Hlo. split; [apply fits_mpos; [done|by apply mlower_mpos]|].
    intros j' Hj'. pose proof (nearest_lower comp v xs 0 (length (cpre k))) as Hn.
    assert (length (cpre k) <= length xs) by (rewrite Hxs, app_length; lia).
    specialize (Hn ltac:(lia) ltac:(lia)). rewrite Hxs, take_app in Hn. specialize (Hn (proj1 Hlo) j'). rewrite <-Hxs in Hn.
    specialize (Hn Hj'). unfold apart in Hn. lia.
  Qed.
  Lemma put_ok (place : V -> list (addr * V) -> nat -> Prop) o xs hf v w a (k : @ctx V) h' t' orc :
    xs = cpre k ++ cpost k -> place v xs (length (cpre k)) -> w_heap w !! a = None ->
    sin (wk comp) o (cpre k ++ (a, v) :: cpost k) h' hf t' ->
    put_at comp cf place o xs hf v w a (World h' orc None (S (w_allocs w)) (S (w_ctors w))).
  Proof.
    intros Hxs Hpl Ha Hs. unfold put_at. simpl. exists (length (cpre k)). split_and!; [done..| |done|done].
    rewrite Hxs, take_app, drop_app. apply mset_is_sin. by exists t'.
  Qed.
  Lemma put_fail (place : V -> list (addr * V) -> nat -> Prop) o xs hf v w w' e :
    w_heap w' = w_heap w -> w_err w' = Some e -> tnode_error cf e -> put_at comp cf place o xs hf v w (t_end o) w'.
  Proof. intros H1 H2 H3. unfold put_at. by rewrite H2. Qed.
End post.

Theorem C64_insert_last V (cf : cfg V) comp o xs hf w x v :
  swo comp -> mset_is comp o xs hf w -> targ_is xs hf x v -> w_err w = None ->
  runs (insert_equal cf comp o x) w (put_at comp cf (last_place comp) o xs hf v w).
Proof.
  intros Hswo [t Hs]%mset_is_sin Hx He. pose proof (targ_rd _ _ _ _ _ _ _ _ Hs Hx) as Hrd.
  eapply insert_equal_spec; [done|exact Hs|done|done| |].
  - intros a k h' t' orc Hxs Hup Ha Hs'. eapply put_ok; [exact Hxs|by apply last_mupper|done|exact Hs'].
  - intros w' e H1 H2 H3. by eapply put_fail.
Qed.
Print Assumptions C64_insert_last.

Theorem C64_emplace_last V (cf : cfg V) comp o xs hf w x v :
  swo comp -> mset_is comp o xs hf w -> targ_is xs hf x v -> w_err w = None ->
  runs (emplace_equal cf comp o x) w (put_at comp cf (last_place comp) o xs hf v w).
Proof.
  intros Hswo [t Hs]%mset_is_sin Hx He. pose proof (targ_rd _ _ _ _ _ _ _ _ Hs Hx) as Hrd.
  eapply emplace_equal_spec; [done|exact Hs|done|done| |].
  - intros a k h' t' orc Hxs Hup Ha Hs'. eapply put_ok; [exact Hxs|by apply last_mupper|done|exact Hs'].
  - intros w' e H1 H2 H3. by eapply put_fail.
Qed.
Print Assumptions C64_emplace_last.

Theorem C64_insert_first V (cf : cfg V) comp o xs hf w x v :
  swo comp -> mset_is comp o xs hf w -> targ_is xs hf x v -> w_err w = None ->
  runs (insert_equal_lower cf comp o x) w (put_at comp cf (first_place comp) o xs hf v w).
Proof.
  intros Hswo [t Hs]%mset_is_sin Hx He. pose proof (targ_rd _ _ _ _ _ _ _ _ Hs Hx) as Hrd.
  eapply insert_equal_lower_spec; [done|exact Hs|done|done| |].
  - intros a k h' t' orc Hxs Hlo Ha Hs'. eapply put_ok; [exact Hxs|by apply first_mlower|done|exact Hs'].
  - intros w' e H1 H2 H3. by eapply put_fail.
Qed.
Print Assumptions C64_insert_first.

Theorem C64_insert_hint V (cf : cfg V) comp o xs hf w x v i :
  swo comp -> mset_is comp o xs hf w -> targ_is xs hf x v -> w_err w = None -> i <= length xs ->
  runs (insert_equal_at cf comp o (tpos (t_hdr o) xs i) x) w (put_at comp cf (close_place comp i) o xs hf v w).
Proof.
  intros Hswo [t Hs]%mset_is_sin Hx He Hi. pose proof (targ_rd _ _ _ _ _ _ _ _ Hs Hx) as Hrd.
  eapply insert_equal_at_spec; [done|exact Hs|done|done|done| |].
  - intros a k h' t' orc Hxs Hpos Hn Ha Hs'. eapply put_ok; [exact Hxs|split; [by apply fits_mpos|done]|done|exact Hs'].
  - intros w' e H1 H2 H3. by eapply put_fail.
Qed.
Print Assumptions C64_insert_hint.

Theorem C64_emplace_hint V (cf : cfg V) comp o xs hf w x v i :
  swo comp -> mset_is comp o xs hf w -> targ_is xs hf x v -> w_err w = None -> i <= length xs ->
  runs (emplace_hint_equal cf comp o (tpos (t_hdr o) xs i) x) w (put_at comp cf (close_place comp i) o xs hf v w).
Proof.
  intros Hswo [t Hs]%mset_is_sin Hx He Hi. pose proof (targ_rd _ _ _ _ _ _ _ _ Hs Hx) as Hrd.
  eapply emplace_hint_equal_spec; [done|exact Hs|done|done|done| |].
  - intros a k h' t' orc Hxs Hpos Hn Ha Hs'. eapply put_ok; [exact Hxs|split; [by apply fits_mpos|done]|done|exact Hs'].
  - intros w' e H1 H2 H3. by eapply put_fail.
Qed.
Print Assumptions C64_emplace_hint.

(** the elements that are already there stay; equal elements keep the order of their insertion *)
Lemma ranked_put V (comp : V -> V -> bool) xs j (a : addr) v u :
  swo comp -> last_place comp v xs j -> lsorted comp xs.*2 ->
  ranked comp u (take j xs ++ (a, v) :: drop j xs).*2 = ranked comp u (xs.*2 ++ [v]).
Proof.
  intros Hswo [Hfit Hlast] Hsrt.
  assert (forall p, p ∈ drop j xs -> comp v p.2 = true) as Hgt.
  { destruct Hfit as (Hj & H1 & H2). intros p Hp. destruct (comp v p.2) eqn:Ec; [done|]. exfalso.
    apply elem_of_list_lookup in Hp as [i Hi]. rewrite lookup_drop in Hi.
    assert (fits comp v xs (S j)) as Hfit'; [|specialize (Hlast _ Hfit'); lia].
    pose proof (lookup_lt_Some _ _ _ Hi) as Hlt. split_and!; [lia| |].
    - intros q Hq. apply elem_of_list_lookup in Hq as [m Hm]. apply lookup_take_Some in Hm as [Hm Hm'].
      destruct (decide (m = j + i)) as [->|Hne]; [by simplify_eq|].
      destruct (comp v q.2) eqn:Eq; [|done]. destruct Hswo as (_ & _ & Hs). destruct (Hs _ _ p.2 Eq) as [|Hpq]; [congruence|].
      rewrite (Hsrt m (j + i) q.2 p.2) in Hpq; [done|lia| |]; by rewrite list_lookup_fmap, ?Hm, ?Hi.
    - intros q Hq. apply H2. apply elem_of_list_lookup in Hq as [m Hm]. apply elem_of_list_lookup. exists (S m).
      rewrite lookup_drop in *. by replace (j + S m) with (S j + m) by lia. }
  assert (xs.*2 = (take j xs).*2 ++ (drop j xs).*2) as Hxs by (by rewrite <-fmap_app, take_drop).
  unfold ranked. rewrite Hxs, fmap_app, fmap_cons, !filter_app. rewrite <-(assoc_L (++)). f_equal. simpl.
  rewrite filter_cons. change (filter _ [v]) with (if decide (same_rank comp u v = true) then [v] else []).
  destruct (decide _) as [Huv|Huv]; [|by rewrite app_nil_r].
  assert (filter (fun x => same_rank comp u x = true) (drop j xs).*2 = []) as ->; [|done].
  clear -Hgt Huv Hswo. induction (drop j xs) as [|p l IH]; [done|].
  rewrite fmap_cons, filter_cons_False; [apply IH; intros q Hq; apply Hgt; by right|].
  specialize (Hgt p ltac:(by left)). unfold same_rank in *. intros Hup.
  apply andb_true_iff in Huv as [H1 H2]. apply andb_true_iff in Hup as [H3 H4].
  apply negb_true_iff in H1, H2, H3, H4. destruct Hswo as (_ & _ & Hs). destruct (Hs _ _ u Hgt); congruence.
Qed.

Theorem C64_emplace_in_order V (cf : cfg V) comp o xs hf w args vs :
  swo comp -> mset_is comp o xs hf w -> Forall2 (targ_is xs hf) args vs -> w_err w = None ->
  runs (emplace_equal_all cf comp o args) w (fun _ w' => exists n xs',
    mset_is comp o xs' hf w' /\ xs'.*2 ≡ₚ xs.*2 ++ take n vs /\
    (forall u, ranked comp u xs'.*2 = ranked comp u (xs.*2 ++ take n vs)) /\
    xs `sublist_of` xs' /\
    match w_err w' with None => n = length vs | Some e => n < length vs /\ tnode_error cf e end).
Proof.
  intros Hswo Hm Ha. revert xs vs w Hm Ha. induction args as [|x args IH]; intros xs vs w Hm Ha He.
  - apply Forall2_nil_inv_l in Ha as ->. apply runs_ret. exists 0, xs. simpl. rewrite app_nil_r, He. by split_and!.
  - apply Forall2_cons_inv_l in Ha as (v & vs' & Hx & Ha & ->). simpl emplace_equal_all. rbind.
    eapply runs_mono; [by eapply C64_emplace_last|]. intros it w1 Hput. rbind. apply runs_has_err. unfold put_at in Hput.
    destruct (w_err w1) as [e|] eqn:He1.
    + destruct Hput as (Hne & _ & Hh). apply runs_ret. exists 0, xs. simpl. rewrite app_nil_r, He1. split_and!; [|done..|lia|done].
      apply mset_is_sin. rewrite Hh. by apply mset_is_sin.
    + destruct Hput as (j & Hpl & Hit & Hm1 & _). simpl.
      assert (xs `sublist_of` take j xs ++ (it, v) :: drop j xs) as Hsub.
      { rewrite <-(take_drop j xs) at 1. by apply sublist_app, sublist_cons. }
      assert (Forall2 (targ_is (take j xs ++ (it, v) :: drop j xs) hf) args vs') as Ha'.
      { eapply Forall2_impl; [exact Ha|]. intros [y|a] u; simpl; [done|]. intros [Hin|Hin]; [left|by right].
        by eapply elem_of_submseteq; [exact Hin|apply sublist_submseteq]. }
      eapply runs_mono; [exact (IH _ vs' w1 Hm1 Ha' He1)|]. intros _ w' (n & xs' & H1 & H2 & H3 & H4 & H5). exists (S n), xs'. split_and!.
      * done.
      * rewrite H2, fmap_app, fmap_cons. rewrite <-(take_drop j xs) at 3. rewrite fmap_app. simpl.
        rewrite <-!(assoc_L (++)). simpl. apply Permutation_app_head. apply Permutation_middle.
      * intros u. rewrite H3. pose proof (ranked_put _ comp xs j it v u Hswo Hpl) as Hr. unfold ranked in *.
        rewrite filter_app, Hr. { rewrite <-filter_app, <-(assoc_L (++)). done. }
        destruct Hm as (hv & (Hsrt & _) & _). done.
      * by transitivity (take j xs ++ (it, v) :: drop j xs).
      * simpl. destruct (w_err w'); [|by f_equal]. destruct H5. split; [lia|done].
Qed.
Print Assumptions C64_emplace_in_order.

Example C64_example :
  mset_is tens mxO mxX ∅ (mw1 []) /\ mxX.*2 = [12; 25; 21; 28; 33; 40] /\
  targ_is mxX ∅ (TAVal 29) 29 /\ targ_is mxX ∅ (TARef 3) 25 /\
  (* behind the equal elements, in front of them, and at the hint, if that is possible *)
  runs (do! insert_equal mcD tens mxO (TAVal 29) in t_walk mxO) (mw1 []) (fun l w' => l = [12; 25; 21; 28; 29; 33; 40]) /\
  runs (do! insert_equal_lower mcD tens mxO (TARef 3) in t_walk mxO) (mw1 []) (fun l w' => l = [12; 25; 25; 21; 28; 33; 40]) /\
  runs (do! insert_equal_at mcD tens mxO (tpos 1 mxX 2) (TAVal 29) in t_walk mxO) (mw1 []) (fun l w' => l = [12; 25; 29; 21; 28; 33; 40]) /\
  runs (do! emplace_hint_equal mcD tens mxO (tpos 1 mxX 6) (TAVal 29) in t_walk mxO) (mw1 []) (fun l w' => l = [12; 25; 21; 28; 29; 33; 40]) /\
  runs (do! emplace_hint_equal mcD tens mxO (tpos 1 mxX 0) (TAVal 29) in t_walk mxO) (mw1 []) (fun l w' => l = [12; 29; 25; 21; 28; 33; 40]) /\
  (* a failing construction changes nothing *)
  runs (let! it := insert_equal mcD tens mxO (TAVal 29) in let! l := t_walk mxO in ret (it, l)) (mw1 [EvOk 40; EvFail 9]) (fun r w' =>
    r = (1%positive, [12; 25; 21; 28; 33; 40]) /\ w_err w' = Some (EElem 9)) /\
  (* equal elements stay in the order of their insertion *)
  runs (do! emplace_equal_all mcD tens mxO [TAVal 34; TAVal 26; TARef 7; TAVal 31; TAVal 20] in t_walk mxO) (mw1 []) (fun l w' =>
    l = [12; 25; 21; 28; 26; 20; 33; 34; 31; 40; 40]).
Proof.
  split; [apply mx_is|]. split; [done|]. split; [done|]. split; [left; apply (elem_of_list_lookup_2 _ 1); done|].
  split_and!; compute_run.
Qed.

(** ** C65: reading and looking up *)

Theorem C65_iteration V (comp : V -> V -> bool) o xs hf w :
  mset_is comp o xs hf w ->
  t_size o w = Done (length xs) w /\ t_empty o w = Done (bool_decide (xs = [])) w /\
  t_walk o w = Done xs.*2 w /\ t_rwalk o w = Done (reverse xs.*2) w.
Proof.
  intros [t Hs]%mset_is_sin. split_and!.
  - apply t_runs_state. intros Q HQ. by eapply size_spec.
  - apply t_runs_state. intros Q HQ. by eapply empty_spec.
  - apply t_runs_state. intros Q HQ. unfold t_walk. rbind. eapply begin_spec; [exact Hs|]. rbind. apply runs_cell_fuel.
    eapply t_walk_loop_spec; [exact Hs|lia| |done]. pose proof (sin_fuel _ _ _ _ _ _ Hs). lia.
  - apply t_runs_state. intros Q HQ. unfold t_rwalk. rbind. eapply begin_spec; [exact Hs|]. rbind. apply runs_cell_fuel.
    replace (t_end o) with (tpos (t_hdr o) xs (length xs)) by (by apply tpos_end).
    eapply t_rwalk_loop_spec; [exact Hs|lia| |]. { by eapply sin_fuel. }
    by rewrite take_ge by (by rewrite fmap_length).
Qed.
Print Assumptions C65_iteration.

Theorem C65_bounds V (comp : V -> V -> bool) o xs hf w k v :
  swo comp -> mset_is comp o xs hf w -> targ_is xs hf k v ->
  exists i j, i <= j /\ j <= length xs /\
    (forall m u, xs.*2 !! m = Some u -> comp u v = true <-> m < i) /\
    (forall m u, xs.*2 !! m = Some u -> comp v u = true <-> j <= m) /\
    (forall m u, xs.*2 !! m = Some u -> equivalent comp u v <-> i <= m < j) /\
    lower_bound comp o k w = Done (tpos (t_hdr o) xs i) w /\
    upper_bound comp o k w = Done (tpos (t_hdr o) xs j) w /\
    equal_range comp o k w = Done (tpos (t_hdr o) xs i, tpos (t_hdr o) xs j) w /\
    t_count comp o k w = Done (j - i) w /\
    t_find comp o k w = Done (if decide (i < j) then tpos (t_hdr o) xs i else t_end o) w.
Proof.
  intros Hswo [t Hs]%mset_is_sin Hk. pose proof (targ_rd _ _ _ _ _ _ _ _ Hs Hk) as Hrd.
  destruct (msplits_ex comp Hswo xs v) as (i & j & Hi & Hj); [apply Hs|]. exists i, j.
  pose proof (fun m u => splits_below comp xs v i m u Hi) as Hci. pose proof (fun m u => splits_above comp xs v j m u Hj) as Hcj.
  split_and!; [by eapply msplits_le|apply Hj|done|done| | | | | |].
  - intros m u Hm. unfold equivalent. specialize (Hci m u Hm). specialize (Hcj m u Hm).
    destruct (comp u v), (comp v u); intuition (try done; try lia).
  - apply t_runs_state. intros Q HQ. eapply mlower_bound_spec; [done|exact Hs|done|]. intros i' Hi'. by rewrite (splits_inj _ _ _ _ Hi' Hi).
  - apply t_runs_state. intros Q HQ. eapply mupper_bound_spec; [done|exact Hs|done|]. intros j' Hj'. by rewrite (splits_inj _ _ _ _ Hj' Hj).
  - apply t_runs_state. intros Q HQ. eapply mequal_range_spec; [done|exact Hs|done|]. intros i' j' Hi' Hj'.
    by rewrite (splits_inj _ _ _ _ Hi' Hi), (splits_inj _ _ _ _ Hj' Hj).
  - apply t_runs_state. intros Q HQ. by eapply mcount_spec.
  - apply t_runs_state. intros Q HQ. by eapply mfind_spec.
Qed.
Print Assumptions C65_bounds.

Example C65_example :
  mset_is tens mxO mxX ∅ (mw1 []) /\ targ_is mxX ∅ (TAVal 23) 23 /\
  runs (let! a := lower_bound tens mxO (TAVal 23) in let! b := upper_bound tens mxO (TAVal 23) in
        let! c := equal_range tens mxO (TAVal 59) in let! n := t_count tens mxO (TARef 2) in
        let! f := t_find tens mxO (TAVal 20) in let! g := t_find tens mxO (TAVal 9) in ret (a, b, c, n, f, g)) (mw1 []) (fun r _ =>
    r = (3, 6, (1, 1), 3%nat, 3, 1)%positive).
Proof. split; [apply mx_is|]. split; [done|]. compute_run. Qed.

(** ** C66: removal, copies and moves *)

Theorem C66_erase_key V (cf : cfg V) comp o xs hf w k v :
  swo comp -> mset_is comp o xs hf w -> targ_is xs hf k v ->
  runs (t_erase_key cf comp o k) w (fun n w' =>
    exists xs', mset_is comp o xs' hf w' /\ t_no_calls w w' /\
      (forall u, u ∈ xs'.*2 -> ~ equivalent comp u v) /\
      exists i, i + n <= length xs /\ xs' = take i xs ++ drop (i + n) xs /\
        forall m u, i <= m < i + n -> xs.*2 !! m = Some u -> equivalent comp u v).
Proof.
  intros Hswo [t Hs]%mset_is_sin Hk. pose proof (targ_rd _ _ _ _ _ _ _ _ Hs Hk) as Hrd.
  destruct (msplits_ex comp Hswo xs v) as (i & j & Hi & Hj); [apply Hs|].
  pose proof (msplits_le comp Hswo _ _ _ _ Hi Hj) as Hij.
  assert (forall m u, xs.*2 !! m = Some u -> equivalent comp u v <-> i <= m < j) as Heq.
  { intros m u Hm. unfold equivalent. pose proof (splits_below comp xs v i m u Hi Hm). pose proof (splits_above comp xs v j m u Hj Hm).
    destruct (comp u v), (comp v u); intuition (try done; try lia). }
  eapply merase_key_spec; [done|exact Hs|done|done|done|]. intros h' t' Hs'.
  exists (take i xs ++ drop j xs). split_and!; [apply mset_is_sin; by exists t'|done| |].
  - intros u Hu Hue. rewrite fmap_app, fmap_take, fmap_drop in Hu. apply elem_of_app in Hu as [Hu|Hu];
      apply elem_of_list_lookup in Hu as [m Hm].
    + apply lookup_take_Some in Hm as [Hm Hlt]. apply (Heq _ _ Hm) in Hue. lia.
    + rewrite lookup_drop in Hm. apply (Heq _ _ Hm) in Hue. lia.
  - exists i. replace (i + (j - i)) with j by lia. split_and!; [apply Hj|done|]. intros m u Hm Hu. by apply (Heq _ _ Hu).
Qed.
Print Assumptions C66_erase_key.

Theorem C66_erase_keys V (cf : cfg V) comp o ks vs xs hf w :
  swo comp -> mset_is comp o xs hf w -> Forall2 (targ_is [] hf) ks vs ->
  runs (t_erase_keys cf comp o ks) w (fun _ w' =>
    t_no_calls w w' /\ exists xs', mset_is comp o xs' hf w' /\ xs' `sublist_of` xs /\
      forall p, p ∈ xs' <-> p ∈ xs /\ forall v, v ∈ vs -> ~ equivalent comp p.2 v).
Proof.
  intros Hswo Hs Hks. revert xs w Hs. induction Hks as [|k v ks vs Hk Hks IH]; intros xs w Hs; simpl.
  - apply runs_ret. split; [done|]. exists xs. split; [done|]. split; [done|]. intros p. split; [|by intros [? _]].
    intros Hp. split; [done|]. intros v Hv. by apply elem_of_nil in Hv.
  - rbind. eapply runs_mono; [eapply C66_erase_key; [done|exact Hs|]|].
    { destruct k as [|a]; [exact Hk|]. destruct Hk as [Hk|Hk]; [by apply elem_of_nil in Hk|by right]. }
    intros n w1 (xs1 & Hs1 & Hn1 & Hno & i & Hi & Hx1 & Hgone).
    assert (xs = take i xs ++ take n (drop i xs) ++ drop (i + n) xs) as Hsplit.
    { rewrite <-(take_drop i xs) at 1. f_equal. rewrite <-drop_drop. by rewrite take_drop. }
    assert (forall p, p ∈ xs1 <-> p ∈ xs /\ ~ equivalent comp p.2 v) as Hin1.
    { intros p. split.
      - intros Hp. split; [|apply Hno; by apply elem_of_list_fmap_1]. rewrite Hsplit. subst xs1. set_solver.
      - intros [Hp Hne]. rewrite Hsplit in Hp. subst xs1. apply elem_of_app in Hp as [Hp|[Hp|Hp]%elem_of_app]; [set_solver| |set_solver].
        destruct Hne. apply elem_of_list_lookup in Hp as [m Hm]. apply lookup_take_Some in Hm as [Hm Hlt]. rewrite lookup_drop in Hm.
        apply (Hgone (i + m)); [lia|]. by rewrite list_lookup_fmap, Hm. }
    assert (xs1 `sublist_of` xs) as Hsub1.
    { rewrite Hsplit, Hx1. apply sublist_app; [done|]. by apply sublist_inserts_l. }
    eapply runs_mono; [by apply IH|]. intros _ w' (Hn2 & xs' & Hs' & Hsub' & Hin'). split.
    { destruct Hn1 as (? & ? & ? & ?), Hn2 as (? & ? & ? & ?). repeat split; congruence. }
    exists xs'. split; [done|]. split; [by etrans|]. intros p. rewrite Hin', Hin1. split.
    + intros [[Hp Hpv] Hall]. split; [done|]. intros v' [->|Hv']%elem_of_cons; auto.
    + intros [Hp Hall]. split; [split; [done|apply Hall; by left]|]. intros v' Hv'. apply Hall. by right.
Qed.
Print Assumptions C66_erase_keys.

Theorem C66_erase V (cf : cfg V) comp o xs hf w i :
  mset_is comp o xs hf w -> i < length xs ->
  runs (t_erase cf o (tpos (t_hdr o) xs i)) w (fun it w' =>
    mset_is comp o (take i xs ++ drop (S i) xs) hf w' /\ it = tpos (t_hdr o) xs (S i) /\ t_no_calls w w').
Proof.
  intros [t Hs]%mset_is_sin Hi. eapply erase_spec; [exact Hs|done|]. intros h' t' Hs'. split_and!; [|done|done].
  apply mset_is_sin. by exists t'.
Qed.
Print Assumptions C66_erase.

Theorem C66_erase_range V (cf : cfg V) comp o xs hf w i j :
  mset_is comp o xs hf w -> i <= j -> j <= length xs ->
  runs (t_erase_range cf o (tpos (t_hdr o) xs i) (tpos (t_hdr o) xs j)) w (fun it w' =>
    mset_is comp o (take i xs ++ drop j xs) hf w' /\ it = tpos (t_hdr o) xs j /\ t_no_calls w w').
Proof.
  intros [t Hs]%mset_is_sin Hij Hj. eapply erase_range_spec; [exact Hs|done|done|]. intros h' t' Hs'. split_and!; [|done|done].
  apply mset_is_sin. by exists t'.
Qed.
Print Assumptions C66_erase_range.

Theorem C66_clear V (comp : V -> V -> bool) o xs hf w :
  mset_is comp o xs hf w -> runs (t_clear o) w (fun _ w' => t_no_calls w w' /\ mset_is comp o [] hf w').
Proof.
  intros [t Hs]%mset_is_sin. eapply clear_spec; [exact Hs|]. intros h' Hs'. split; [done|]. apply mset_is_sin. by exists Leaf.
Qed.
Print Assumptions C66_clear.

Theorem C66_destroy V (comp : V -> V -> bool) o xs hf w :
  mset_is comp o xs hf w -> runs (t_destroy o) w (fun _ w' => t_no_calls w w' /\ w_heap w' = hf).
Proof. intros [t Hs]%mset_is_sin. eapply destroy_spec; [exact Hs|]. done. Qed.
Print Assumptions C66_destroy.

Theorem C66_copy V (cf : cfg V) comp o other xs ys hv2 hf w :
  mset_is comp o xs (hv2 ∪ hf) w -> mset_own comp (t_alloc other) (t_hdr other) ys hv2 -> hv2 ##ₘ hf -> w_err w = None ->
  runs (t_copy cf o other) w (fun _ w' =>
    match w_err w' with
    | None => exists zs, zs.*2 = ys.*2 /\ mset_is comp o zs (hv2 ∪ hf) w' /\ (forall a, a ∈ zs.*1 -> a ∉ ys.*1)
    | Some e => tnode_error cf e /\ mset_is comp o [] (hv2 ∪ hf) w'
    end).
Proof.
  intros [t Hs]%mset_is_sin Ho2%mset_own_set Hd He.
  assert (forall b, b ∈ t_hdr other :: ys.*1 -> is_Some ((hv2 ∪ hf) !! b)) as Hin2.
  { intros b Hb. destruct Ho2 as (_ & t2 & <- & _ & _ & _ & Hdom & _). apply Hdom in Hb. apply lookup_union_is_Some. by left. }
  eapply copy_spec; [|done|exact Hs|by apply own_there| |].
  - destruct Hs as ([_ _ _ _ Hnone] & _). intros Heq. destruct (Hin2 (t_hdr other)) as [c Hc]; [by left|].
    rewrite <-Heq in Hc. rewrite Hnone in Hc; [done|by left].
  - intros h' orc zs t' Hzs Hs'. simpl. exists zs. split; [done|]. split; [apply mset_is_sin; by exists t'|].
    intros a Ha Ha2. destruct (Hin2 a) as [c Hc]; [by right|]. destruct Hs' as ([_ _ _ _ Hnone] & Hz & _).
    rewrite Hnone in Hc; [done|]. right. by rewrite Hz.
  - intros w' e Hs' He' Hne. rewrite He'. split; [done|]. apply mset_is_sin. by exists Leaf.
Qed.
Print Assumptions C66_copy.

Theorem C66_move_assign V (comp : V -> V -> bool) o p xs ys hv2 hf w :
  t_alloc o = t_alloc p ->
  mset_is comp o xs (hv2 ∪ hf) w -> mset_own comp (t_alloc p) (t_hdr p) ys hv2 -> hv2 ##ₘ hf ->
  runs (t_move_assign o p) w (fun _ w' =>
    t_no_calls w w' /\ exists hv2', mset_own comp (t_alloc p) (t_hdr p) [] hv2' /\ hv2' ##ₘ hf /\ mset_is comp o ys (hv2' ∪ hf) w').
Proof.
  intros Hal [t Hs]%mset_is_sin Ho2%mset_own_set Hd. eapply move_assign_spec; [done|by exists hv2, t|].
  intros h' (hv2' & t' & Ho' & Hd' & Hs'). split; [done|]. exists hv2'. split_and!; [by apply mset_own_set|done|]. apply mset_is_sin. by exists t'.
Qed.
Print Assumptions C66_move_assign.

Theorem C66_swap V (comp : V -> V -> bool) o p xs ys hv2 hf w :
  t_alloc o = t_alloc p ->
  mset_is comp o xs (hv2 ∪ hf) w -> mset_own comp (t_alloc p) (t_hdr p) ys hv2 -> hv2 ##ₘ hf ->
  runs (t_swap o p) w (fun _ w' =>
    t_no_calls w w' /\ exists hv2', mset_own comp (t_alloc p) (t_hdr p) xs hv2' /\ hv2' ##ₘ hf /\ mset_is comp o ys (hv2' ∪ hf) w').
Proof.
  intros Hal [t Hs]%mset_is_sin Ho2%mset_own_set Hd. eapply swap_spec; [done|by exists hv2, t|].
  intros h' (hv2' & t' & Ho' & Hd' & Hs'). split; [done|]. exists hv2'. split_and!; [by apply mset_own_set|done|]. apply mset_is_sin. by exists t'.
Qed.
Print Assumptions C66_swap.

Example C66_example :
  mset_is tens mxO mxX ∅ (mw1 []) /\ targ_is mxX ∅ (TARef 2) 21 /\
  runs (let! n := t_erase_key mcD tens mxO (TARef 2) in let! l := t_walk mxO in ret (n, l)) (mw1 []) (fun r _ =>
    r = (3, [12; 33; 40])) /\
  Forall2 (targ_is [] ∅) [TAVal 20; TAVal 5; TAVal 40] [20; 5; 40] /\
  runs (do! t_erase_keys mcD tens mxO [TAVal 20; TAVal 5; TAVal 40] in t_walk mxO) (mw1 []) (fun l _ => l = [12; 33]) /\
  mset_is tens mxO mxX (mxH2 ∪ ∅) (mw2 []) /\ mset_own tens (t_alloc mxO2) (t_hdr mxO2) mxX2 mxH2 /\ t_alloc mxO = t_alloc mxO2 /\
  runs (do! t_copy mcD mxO mxO2 in let! l := t_walk mxO in let! l2 := t_walk mxO2 in ret (l, l2)) (mw2 []) (fun r w' =>
    w_err w' = None /\ r = ([17; 15; 50], [17; 15; 50])) /\
  runs (do! t_swap mxO mxO2 in let! l := t_walk mxO in let! l2 := t_walk mxO2 in ret (l, l2)) (mw2 []) (fun r w' =>
    r = ([17; 15; 50], [12; 25; 21; 28; 33; 40])).
Proof.
  split; [apply mx_is|]. split; [left; apply (elem_of_list_lookup_2 _ 2); done|]. split; [compute_run|].
  split; [by repeat constructor|]. split; [compute_run|].
  split; [rewrite (right_id_L ∅ (∪)); apply mx_is2|]. split; [apply mx_own2|]. split; [done|]. split; compute_run.
Qed.
