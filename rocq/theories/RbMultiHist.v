(** * Histories of calls on trees that keep equal values: proofs *)
From Verif Require Export RbHist RbMulti RbMultiHistSpec.

#[global] Arguments exec_mop : simpl never.

Section hist.
  Context {V : Type} {LL : limit} (cf : cfg V) (comp : V -> V -> bool).
  Notation H := (gmap addr (tcell V)).
  Notation W := (world (tcell V)).
  Notation E := (addr * V)%type.
  Notation L := (list (addr * list E)).
  Implicit Types hv hf hr : H.
  Implicit Types w : W.
  Implicit Types xs ys : list E.
  Implicit Types R : L.
  Implicit Types xss : list (list E).
  Notation al := (c_dflt cf).
  Notation wk := (wk comp).
  Notation sin := (sin wk).
  Notation srow := (srow cf wk).
  Notation set h := (TSet al h).
  Notation objs hds := (TSet al <$> hds).

  Lemma msets_own_wk R hv : msets_own comp al R hv <-> sets_own wk al R hv.
  Proof.
    revert hv. induction R as [|[h xs] R IH]; intros hv; simpl; [done|]. setoid_rewrite IH. by setoid_rewrite mset_own_set.
  Qed.

  (** ** One call *)

  Definition mop_post op hds xss hf (a : mans V) w' : Prop :=
    exists xss' hv', srow hds xss' hv' /\ heap_is w' hv' hf /\
      mop_spec comp op (vals xss) (w_err w') a (vals xss') /\
      forall p, p ∈ concat xss -> mop_kills comp op xss p \/ p ∈ concat xss'.

  Lemma mpost_same op hds xss hv hf a w' :
    srow hds xss hv -> heap_is w' hv hf -> mop_spec comp op (vals xss) (w_err w') a (vals xss) ->
    mop_post op hds xss hf a w'.
  Proof. intros Hr Hh Hs. exists xss, hv. split_and!; try done. intros p Hp. by right. Qed.

  Lemma with_tree_none (hds : list addr) i (k : tset -> M (tcell V) (mans V)) :
    hds !! i = None -> with_tree (objs hds) i k = ret MsNone.
  Proof. intros Hi. unfold with_tree. by rewrite list_lookup_fmap, Hi. Qed.
  Lemma with_tree_some (hds : list addr) i h (k : tset -> M (tcell V) (mans V)) :
    hds !! i = Some h -> with_tree (objs hds) i k = k (set h).
  Proof. intros Hi. unfold with_tree. by rewrite list_lookup_fmap, Hi. Qed.

  (** Change one tree. *)
  Lemma mexec_one op hds xss hv hf w i k :
    srow hds xss hv -> heap_is w hv hf -> w_err w = None ->
    (vals xss !! i = None -> mop_spec comp op (vals xss) None MsNone (vals xss)) ->
    (forall h xs hr t, hds !! i = Some h -> xss !! i = Some xs ->
       sin (set h) xs (w_heap w) (hr ∪ hf) t ->
       (forall ys t' w' a, sin (set h) ys (w_heap w') (hr ∪ hf) t' ->
          mop_spec comp op (vals xss) (w_err w') a (<[ i := ys.*2 ]> (vals xss)) ->
          (forall p, p ∈ xs -> mop_kills comp op xss p \/ p ∈ ys) -> mop_post op hds xss hf a w') ->
       runs (k (set h)) w (mop_post op hds xss hf)) ->
    runs (with_tree (objs hds) i k) w (mop_post op hds xss hf).
  Proof.
    intros Hr Hh He Hn1 Hk. destruct (hds !! i) as [h|] eqn:Ei.
    - rewrite (with_tree_some _ _ _ _ Ei).
      destruct (srow_lookup _ _ _ _ _ _ _ Hr Ei) as [xs Hxs].
      destruct (srow_at _ _ _ _ _ _ _ _ Hr Ei Hxs) as (R & HR & Ho1 & Hback).
      destruct (own_get _ _ _ _ _ _ _ _ Ho1 Hh) as (hr & t & HoR & Hd & Hs). eapply Hk; [done..|].
      intros ys t' w' a Hs' Hsp Hk'. destruct (own_put _ _ _ _ _ _ _ _ _ HoR Hd Hs') as (hv' & Ho' & Hh').
      exists (<[ i := ys ]> xss), hv'. split_and!; [by apply Hback|done|by rewrite vals_insert|by eapply kept1].
    - rewrite (with_tree_none _ _ _ Ei). apply runs_ret. eapply mpost_same; [done..|]. rewrite He. apply Hn1.
      by rewrite vals_lookup, (srow_none _ _ _ _ _ _ Hr Ei).
  Qed.
  (** Change one tree through a call that takes an element argument. *)
  Lemma mexec_elem op hds xss hv hf w i x k :
    srow hds xss hv -> heap_is w hv hf -> w_err w = None ->
    (vals xss !! i = None -> mop_spec comp op (vals xss) None MsNone (vals xss)) ->
    (hval_of (vals xss) x = None -> mop_spec comp op (vals xss) None MsNone (vals xss)) ->
    (forall h xs hr t a v, hds !! i = Some h -> xss !! i = Some xs ->
       sin (set h) xs (w_heap w) (hr ∪ hf) t ->
       hval_of (vals xss) x = Some v -> rd (w_heap w) a v ->
       (forall ys t' w' a, sin (set h) ys (w_heap w') (hr ∪ hf) t' ->
          mop_spec comp op (vals xss) (w_err w') a (<[ i := ys.*2 ]> (vals xss)) ->
          (forall p, p ∈ xs -> mop_kills comp op xss p \/ p ∈ ys) -> mop_post op hds xss hf a w') ->
       runs (k (set h) a) w (mop_post op hds xss hf)) ->
    runs (with_tree (objs hds) i (fun o => with_marg (objs hds) x (k o))) w (mop_post op hds xss hf).
  Proof.
    intros Hr Hh He Hn1 Hn2 Hk. eapply mexec_one; [done..|]. intros h xs hr t Hi Hx Hs Hpost.
    unfold with_marg. rbind. eapply (t_get_arg_spec cf wk); [done..| |].
    - intros Hv. apply runs_ret. eapply mpost_same; [done..|]. rewrite He. by apply Hn2.
    - intros a v Hv Hrd. by eapply Hk.
  Qed.
  (** Change two trees, or one with itself. *)
  Lemma mexec_two op hds xss hv hf w i j k :
    srow hds xss hv -> heap_is w hv hf -> w_err w = None ->
    (vals xss !! i = None \/ vals xss !! j = None -> mop_spec comp op (vals xss) None MsNone (vals xss)) ->
    (forall h xs hr t, i = j -> hds !! i = Some h -> xss !! i = Some xs ->
       sin (set h) xs (w_heap w) (hr ∪ hf) t ->
       (forall ys t' w' a, sin (set h) ys (w_heap w') (hr ∪ hf) t' ->
          mop_spec comp op (vals xss) (w_err w') a (<[ i := ys.*2 ]> (vals xss)) ->
          (forall p, p ∈ xs -> mop_kills comp op xss p \/ p ∈ ys) -> mop_post op hds xss hf a w') ->
       runs (k (set h) (set h)) w (mop_post op hds xss hf)) ->
    (forall h xs h2 xs2 hr, i <> j -> hds !! i = Some h -> xss !! i = Some xs -> hds !! j = Some h2 -> xss !! j = Some xs2 ->
       pair_is wk (set h) xs (set h2) xs2 (w_heap w) (hr ∪ hf) ->
       (forall y z w' a, pair_is wk (set h) y (set h2) z (w_heap w') (hr ∪ hf) ->
          mop_spec comp op (vals xss) (w_err w') a (<[ i := y.*2 ]> (<[ j := z.*2 ]> (vals xss))) ->
          (forall p, p ∈ xs \/ p ∈ xs2 -> (mop_kills comp op xss p) \/ p ∈ y \/ p ∈ z) -> mop_post op hds xss hf a w') ->
       runs (k (set h) (set h2)) w (mop_post op hds xss hf)) ->
    runs (with_tree (objs hds) i (fun o => with_tree (objs hds) j (k o))) w (mop_post op hds xss hf).
  Proof.
    intros Hr Hh He Hn Hk1 Hk2. destruct (hds !! j) as [h2|] eqn:Ej.
    2: { assert (runs (ret MsNone) w (mop_post op hds xss hf)) as Hret.
         { apply runs_ret. eapply mpost_same; [done..|]. rewrite He. apply Hn. right.
           by rewrite vals_lookup, (srow_none _ _ _ _ _ _ Hr Ej). }
         destruct (hds !! i) as [h|] eqn:Ei.
         - by rewrite (with_tree_some _ _ _ _ Ei), (with_tree_none _ _ _ Ej).
         - by rewrite (with_tree_none _ _ _ Ei). }
    destruct (decide (i = j)) as [Hij|Hne].
    { subst j. eapply mexec_one; [done..| |].
      - intros Hnone. apply Hn. by left.
      - intros h xs hr t Hi Hx Hs Hpost. rewrite Ej in Hi. simplify_eq. rewrite (with_tree_some _ _ _ _ Ej). by eapply Hk1. }
    destruct (hds !! i) as [h|] eqn:Ei.
    2: { rewrite (with_tree_none _ _ _ Ei). apply runs_ret. eapply mpost_same; [done..|]. rewrite He. apply Hn. left.
         by rewrite vals_lookup, (srow_none _ _ _ _ _ _ Hr Ei). }
    rewrite (with_tree_some _ _ _ _ Ei), (with_tree_some _ _ _ _ Ej).
    destruct (srow_lookup _ _ _ _ _ _ _ Hr Ei) as [xs Hxs]. destruct (srow_lookup _ _ _ _ _ _ _ Hr Ej) as [xs2 Hxs2].
    destruct (get2 _ _ _ _ _ _ _ _ Hne Ei Hxs Ej Hxs2) as (R & HR & HR').
    pose proof Hr as [Hl Ho]. assert (sets_own wk al ((h, xs) :: (h2, xs2) :: R) hv) as Ho2 by (eapply sown_perm; [|exact Ho]; by rewrite HR).
    destruct (own_get2 _ _ _ _ _ _ _ _ _ _ Ho2 Hh) as (hr & HoR & Hd & Hp).
    eapply Hk2; try done. intros y z w' a Hp' Hs Hk.
    destruct (own_put2 _ _ _ _ _ _ _ _ _ _ HoR Hd Hp') as (hv' & Ho' & Hh').
    exists (<[ i := y ]> (<[ j := z ]> xss)), hv'. split_and!; [| done |by rewrite !vals_insert|].
    - split; [by rewrite !insert_length|]. eapply sown_perm; [|exact Ho']. by rewrite HR'.
    - intros p (m & ms & Hm & Hin)%in_rows.
      assert (Hli : i < length xss) by (by eapply lookup_lt_Some). assert (Hlj : j < length xss) by (by eapply lookup_lt_Some).
      assert (Hd' : p ∈ y \/ p ∈ z -> p ∈ concat (<[ i := y ]> (<[ j := z ]> xss))).
      { intros [Hy|Hz]; apply in_rows; [exists i, y|exists j, z]; split; try done.
        - apply list_lookup_insert. by rewrite insert_length.
        - rewrite list_lookup_insert_ne by done. by apply list_lookup_insert. }
      destruct (decide (m = i)) as [->|Hmi]; [|destruct (decide (m = j)) as [->|Hmj]].
      + simplify_eq. destruct (Hk p) as [?|?]; [by left|by left|right; by apply Hd'].
      + simplify_eq. destruct (Hk p) as [?|?]; [by right|by left|right; by apply Hd'].
      + right. apply in_rows. exists m, ms. split; [|done]. by rewrite !list_lookup_insert_ne.
  Qed.

  (** ** Facts about plain lists *)

  Lemma filter_all (P : V -> Prop) `{!forall x, Decision (P x)} (l : list V) : (forall u, u ∈ l -> P u) -> filter P l = l.
  Proof.
    induction l as [|u l IH]; intros Hl; [done|]. rewrite filter_cons, decide_True by (apply Hl; by left).
    f_equal. apply IH. intros u' Hu'. apply Hl. by right.
  Qed.
  Lemma filter_none (P : V -> Prop) `{!forall x, Decision (P x)} (l : list V) : (forall u, u ∈ l -> ~ P u) -> filter P l = [].
  Proof.
    induction l as [|u l IH]; intros Hl; [done|]. rewrite filter_cons, decide_False by (apply Hl; by left).
    apply IH. intros u' Hu'. apply Hl. by right.
  Qed.
  Lemma in_vals (u : V) xs : u ∈ xs.*2 -> exists p, p ∈ xs /\ p.2 = u.
  Proof. intros (p & -> & Hp)%elem_of_list_fmap. eauto. Qed.

  Lemma put_last_ctx (k : @ctx V) a v : mupper comp k v -> put_last comp v (cpre k ++ cpost k).*2 = (cpre k ++ (a, v) :: cpost k).*2.
  Proof.
    intros [H1 H2]. unfold put_last. rewrite !fmap_app, !filter_app. csimpl.
    rewrite (filter_all _ (cpre k).*2), (filter_none _ (cpost k).*2), (filter_none _ (cpre k).*2), (filter_all _ (cpost k).*2);
      [by rewrite app_nil_r|intros u (p & Hp & <-)%in_vals..].
    - by apply H2.
    - by rewrite H1.
    - by rewrite H2.
    - by apply H1.
  Qed.
  Lemma put_first_ctx (k : @ctx V) a v : mlower comp k v -> put_first comp v (cpre k ++ cpost k).*2 = (cpre k ++ (a, v) :: cpost k).*2.
  Proof.
    intros [H1 H2]. unfold put_first. rewrite !fmap_app, !filter_app. csimpl.
    rewrite (filter_all _ (cpre k).*2), (filter_none _ (cpost k).*2), (filter_none _ (cpre k).*2), (filter_all _ (cpost k).*2);
      [by rewrite app_nil_r|intros u (p & Hp & <-)%in_vals..].
    - by apply H2.
    - by rewrite H1.
    - by rewrite H2.
    - by apply H1.
  Qed.
  Lemma may_stand_fits v xs j : may_stand comp v xs.*2 j <-> fits comp v xs j.
  Proof.
    unfold may_stand, fits. rewrite fmap_length, <-fmap_take, <-fmap_drop. split; intros (Hj & H1 & H2); split_and!; try done.
    - intros p Hp. apply H1. by apply elem_of_list_fmap_1.
    - intros p Hp. apply H2. by apply elem_of_list_fmap_1.
    - intros u (p & Hp & <-)%in_vals. by apply H1.
    - intros u (p & Hp & <-)%in_vals. by apply H2.
  Qed.
  Lemma put_near_ctx (k : @ctx V) a v p :
    mpos comp k v -> nearest comp v (cpre k ++ cpost k) (p `min` length (cpre k ++ cpost k)) (length (cpre k)) ->
    put_near comp p v (cpre k ++ cpost k).*2 (cpre k ++ (a, v) :: cpost k).*2.
  Proof.
    intros [H1 H2] Hn. exists (length (cpre k)). split_and!.
    - apply may_stand_fits. split; [rewrite app_length; lia|]. by rewrite take_app, drop_app.
    - intros j' Hj'%may_stand_fits. rewrite fmap_length. by apply Hn.
    - by rewrite <-fmap_take, <-fmap_drop, take_app, drop_app, fmap_app.
  Qed.

  Lemma cut3 {A} (l : list A) i j : i <= j -> l = take i l ++ take (j - i) (drop i l) ++ drop j l.
  Proof.
    intros Hij. rewrite <-(take_drop i l) at 1. f_equal. rewrite <-(take_drop (j - i) (drop i l)) at 1. f_equal.
    rewrite drop_drop. f_equal. lia.
  Qed.
  Lemma split_class xs v i j u m :
    splits (fun u => comp u v) xs i -> splits (fun u => negb (comp v u)) xs j -> xs.*2 !! m = Some u ->
    same_rank comp v u = bool_decide (i <= m < j).
  Proof.
    intros [_ Hi] [_ Hj] Hm. rewrite list_lookup_fmap in Hm. destruct (xs !! m) as [[a u']|] eqn:Em; simplify_eq/=.
    pose proof (Hi _ _ _ Em) as H1. pose proof (Hj _ _ _ Em) as H2. unfold same_rank. rewrite H2, H1.
    symmetry. destruct (bool_decide (m < j)) eqn:Ej, (bool_decide (m < i)) eqn:Ei; simpl;
      repeat match goal with
      | Hb : bool_decide _ = true |- _ => apply bool_decide_eq_true_1 in Hb
      | Hb : bool_decide _ = false |- _ => apply bool_decide_eq_false_1 in Hb
      end; [apply bool_decide_eq_false|apply bool_decide_eq_true|apply bool_decide_eq_false|apply bool_decide_eq_false]; lia.
  Qed.
  Lemma ranked_split xs v i j : i <= j -> j <= length xs ->
    splits (fun u => comp u v) xs i -> splits (fun u => negb (comp v u)) xs j ->
    ranked comp v xs.*2 = take (j - i) (drop i xs.*2) /\ without comp v xs.*2 = (take i xs ++ drop j xs).*2.
  Proof.
    intros Hij Hj HI HJ. pose proof (fun m u => split_class xs v i j u m HI HJ) as Hc. unfold ranked, without.
    rewrite fmap_app, fmap_take, fmap_drop. set (l := xs.*2) in *.
    assert (forall u, u ∈ take i l -> same_rank comp v u = false) as H1.
    { intros u [m Hm]%elem_of_list_lookup. apply lookup_take_Some in Hm as [Hm Hlt]. rewrite (Hc m u Hm). apply bool_decide_eq_false. lia. }
    assert (forall u, u ∈ take (j - i) (drop i l) -> same_rank comp v u = true) as H2.
    { intros u [m Hm]%elem_of_list_lookup. apply lookup_take_Some in Hm as [Hm Hlt]. rewrite lookup_drop in Hm. rewrite (Hc _ u Hm). apply bool_decide_eq_true. lia. }
    assert (forall u, u ∈ drop j l -> same_rank comp v u = false) as H3.
    { intros u [m Hm]%elem_of_list_lookup. rewrite lookup_drop in Hm. rewrite (Hc _ u Hm). apply bool_decide_eq_false. lia. }
    split.
    - rewrite (cut3 l i j Hij) at 1. rewrite !filter_app, (filter_none _ (take i l)), (filter_all _ (take (j - i) _)), (filter_none _ (drop j l)).
      + by rewrite app_nil_r.
      + intros u Hu. by rewrite H3.
      + done.
      + intros u Hu. by rewrite H1.
    - rewrite (cut3 l i j Hij) at 1. rewrite !filter_app, (filter_all _ (take i l)), (filter_none _ (take (j - i) _)), (filter_all _ (drop j l)); try done.
      intros u Hu. by rewrite H2.
  Qed.

  (** walk over a part *)
  Lemma walk_part_spec o xs hf t fuel i j w (Q : list V -> W -> Prop) :
    sin o xs (w_heap w) hf t -> i <= j -> j <= length xs -> j - i < fuel ->
    Q (take (j - i) (drop i xs.*2)) w -> runs (t_walk_loop fuel (tpos (t_hdr o) xs j) (tpos (t_hdr o) xs i)) w Q.
  Proof.
    intros Hs Hij Hj. pose proof (sin_nodup _ _ _ _ _ _ Hs) as Hn. revert i Q Hij. induction fuel as [|fuel IH]; intros i Q Hij Hf HQ; [lia|]. simpl.
    destruct (decide (i = j)) as [->|Hne].
    - rewrite decide_True by done. apply runs_ret. by rewrite Nat.sub_diag in HQ.
    - rewrite decide_False by (intros Heq; apply (tpos_inj o) in Heq; [lia|done|lia|lia]).
      destruct (lookup_lt_is_Some_2 xs i) as [[a v] Ei]; [lia|].
      rbind. erewrite tpos_some at 1 by done. eapply (tread_spec wk); [done..|]. rbind. eapply (RbSet.runs_inc wk); [exact Hs|lia|].
      rbind. apply IH; [lia|lia|]. apply runs_ret. erewrite drop_at in HQ; [|by rewrite list_lookup_fmap, Ei].
      by replace (j - i) with (S (j - S i)) in HQ by lia.
  Qed.

  Lemma emplace_all_spec vs o xs t hf w (Q : unit -> W -> Prop) :
    swo comp -> sin o xs (w_heap w) hf t -> w_err w = None ->
    (forall ys t' w' n, sin o ys (w_heap w') hf t' -> (forall p, p ∈ xs -> p ∈ ys) ->
       ys.*2 = fold_left (fun l v => put_last comp v l) (take n vs) xs.*2 ->
       match w_err w' with None => n = length vs | Some e => n < length vs end -> Q tt w') ->
    runs (emplace_equal_all cf comp o (map TAVal vs)) w Q.
  Proof.
    intros Hswo. revert xs t w. induction vs as [|v vs IH]; intros xs t w Hs He HQ.
    - simpl. apply runs_ret. apply (HQ xs t w 0); [done|done|done|]. by rewrite He.
    - cbn [map emplace_equal_all]. rbind. eapply emplace_equal_spec; [done|exact Hs|done|done| |].
      + intros a k h' t' orc -> Hup Ha Hs'. rbind. apply runs_has_err. simpl.
        eapply IH; [exact Hs'|done|]. intros ys t'' w' n Hs'' Hk Hp Hn. apply (HQ ys t'' w' (S n)); [done| | |].
        * intros p Hp'. apply Hk. by apply keep_ins.
        * simpl. by rewrite (put_last_ctx k a v Hup).
        * destruct (w_err w'); simpl; lia.
      + intros w' e Hw' He' Hne. rbind. apply runs_has_err. rewrite He'. simpl. apply runs_ret.
        apply (HQ xs t w' 0); [by rewrite Hw'|done|done|]. rewrite He'. simpl. lia.
  Qed.
  Lemma erase_keys_spec vs o xs t hf w (Q : unit -> W -> Prop) :
    swo comp -> sin o xs (w_heap w) hf t ->
    (forall ys t' h', sin o ys h' hf t' -> ys.*2 = fold_left (fun l v => without comp v l) vs xs.*2 ->
       (forall p, p ∈ xs -> (exists v, v ∈ vs /\ equivalent comp p.2 v) \/ p ∈ ys) -> Q tt (set_heap h' w)) ->
    runs (t_erase_keys cf comp o (map TAVal vs)) w Q.
  Proof.
    intros Hswo. revert xs t w. induction vs as [|v vs IH]; intros xs t w Hs HQ.
    - simpl. apply runs_ret. destruct w. apply (HQ xs t); [done|done|by right].
    - cbn [map t_erase_keys]. destruct (msplits_ex comp Hswo xs v) as (i & j & Hi & Hj); [apply Hs|].
      pose proof (msplits_le comp Hswo _ _ _ _ Hi Hj) as Hij.
      rbind. eapply merase_key_spec; [done|exact Hs|done|exact Hi|exact Hj|]. intros h' t' Hs'.
      eapply IH; [exact Hs'|]. intros ys t'' h'' Hs'' Hys Hk. apply (HQ ys t'' h''); [done| |].
      + rewrite Hys. simpl. f_equal. by destruct (ranked_split xs v i j Hij (proj1 Hj) Hi Hj) as [_ ->].
      + intros p Hp. destruct (keep_del_range xs i j p Hij Hp) as [(q & Hq & Hqp)|Hp'].
        * left. exists v. split; [by left|]. pose proof (split_class xs v i j p.2 q Hi Hj) as Hc.
          rewrite list_lookup_fmap, Hqp in Hc. specialize (Hc eq_refl). rewrite bool_decide_true in Hc by lia.
          unfold same_rank in Hc. apply andb_true_iff in Hc as [Hc1%negb_true_iff Hc2%negb_true_iff]. done.
        * destruct (Hk p Hp') as [(u & Hu & Heq)|]; [left; exists u; split; [by right|done]|by right].
  Qed.

  Lemma ans_iter_new (o : tset) m xs hf t0 v w (P : mans V -> W -> Prop) (Place : @ctx V -> Prop) :
    sin o xs (w_heap w) hf t0 ->
    (forall Q : addr -> W -> Prop,
      (forall a k h' t' orc, xs = cpre k ++ cpost k -> Place k -> w_heap w !! a = None ->
         sin o (cpre k ++ (a, v) :: cpost k) h' hf t' -> Q a (World h' orc None (S (w_allocs w)) (S (w_ctors w)))) ->
      (forall w' e, w_heap w' = w_heap w -> w_err w' = Some e -> tnode_error cf e -> Q (t_end o) w') ->
      runs m w Q) ->
    (forall a k t' w', xs = cpre k ++ cpost k -> Place k -> sin o (cpre k ++ (a, v) :: cpost k) (w_heap w') hf t' -> w_err w' = None ->
       P (MsIter (Some v)) w') ->
    (forall e w', sin o xs (w_heap w') hf t0 -> w_err w' = Some e -> P (MsIter None) w') ->
    runs (ans_iter o m) w P.
  Proof.
    intros Hs Hm Hok Hfail. unfold ans_iter. rbind. apply Hm.
    - intros a k h' t' orc Hxs Hpl Ha Hs'. rbind. eapply (read_iter_at wk o _ _ _ (length (cpre k))); [exact Hs'|by apply list_lookup_middle|].
      apply runs_ret. by eapply Hok.
    - intros w' e Hw' He' Hne. rbind. rewrite <-Hw' in Hs.
      replace (t_end o) with (tpos (t_hdr o) xs (length xs)) by (by apply tpos_end).
      eapply (read_iter_spec wk); [exact Hs|]. apply runs_ret.
      rewrite (proj2 (lookup_ge_None xs.*2 (length xs))) by (by rewrite fmap_length). by eapply Hfail.
  Qed.


  Lemma runs_exec_mop op hds xss hv hf w :
    swo comp -> srow hds xss hv -> heap_is w hv hf -> w_err w = None ->
    runs (exec_mop cf comp op (objs hds)) w (mop_post op hds xss hf).
  Proof.
    intros Hswo Hr Hh He.
    destruct op as [i x|i x|i p x|i x|i p x|i vs|i x|i vs|i p|i p n|i|i j|i j|i j|i x|i x|i x|i x|i x]; unfold exec_mop.
    - (* insert *) eapply mexec_elem; [done..| | |].
      { intros Hi. simpl. by rewrite Hi. } { intros Hx. simpl. rewrite Hx. by destruct (vals xss !! i). }
      intros h xs hr t a v Hi Hx Hs Hv Hrd Hpost. pose proof (vals_at _ _ _ Hx) as Hvi.
      eapply (ans_iter_new _ _ _ _ _ _ _ _ (fun k => mupper comp k v)); [exact Hs|intros Q; by eapply insert_equal_spec| |].
      + intros b k t' w' -> Hup Hs' He'. eapply Hpost; [exact Hs'| |intros q Hq; right; by apply keep_ins].
        simpl. rewrite Hvi, Hv, He'. split; [done|]. by rewrite (put_last_ctx k b v).
      + intros e w' Hs' He'. eapply Hpost; [exact Hs'| |by right]. simpl. rewrite Hvi, Hv, He'. split; [done|]. by apply vals_same.
    - (* insert lower *) eapply mexec_elem; [done..| | |].
      { intros Hi. simpl. by rewrite Hi. } { intros Hx. simpl. rewrite Hx. by destruct (vals xss !! i). }
      intros h xs hr t a v Hi Hx Hs Hv Hrd Hpost. pose proof (vals_at _ _ _ Hx) as Hvi.
      eapply (ans_iter_new _ _ _ _ _ _ _ _ (fun k => mlower comp k v)); [exact Hs|intros Q; by eapply insert_equal_lower_spec| |].
      + intros b k t' w' -> Hup Hs' He'. eapply Hpost; [exact Hs'| |intros q Hq; right; by apply keep_ins].
        simpl. rewrite Hvi, Hv, He'. split; [done|]. by rewrite (put_first_ctx k b v).
      + intros e w' Hs' He'. eapply Hpost; [exact Hs'| |by right]. simpl. rewrite Hvi, Hv, He'. split; [done|]. by apply vals_same.
    - (* insert with hint *) eapply mexec_elem; [done..| | |].
      { intros Hi. simpl. by rewrite Hi. } { intros Hx. simpl. rewrite Hx. by destruct (vals xss !! i). }
      intros h xs hr t a v Hi Hx Hs Hv Hrd Hpost. pose proof (vals_at _ _ _ Hx) as Hvi.
      rbind. eapply (t_iter_at_spec wk); [exact Hs|]. rewrite (tpos_clip (t_hdr (set h)) xs p).
      eapply (ans_iter_new _ _ _ _ _ _ _ _ (fun k => mpos comp k v /\ nearest comp v xs (p `min` length xs) (length (cpre k)))); [exact Hs| | |].
      { intros Q Hok Hfail. eapply insert_equal_at_spec; [done|exact Hs|done|done|lia| |done]. intros. by eapply Hok. }
      + intros b k t' w' -> [Hup Hn] Hs' He'. eapply Hpost; [exact Hs'| |intros q Hq; right; by apply keep_ins].
        simpl. rewrite Hvi, Hv, He'. split; [done|]. eexists. split; [|done]. by apply put_near_ctx.
      + intros e w' Hs' He'. eapply Hpost; [exact Hs'| |by right]. simpl. rewrite Hvi, Hv, He'. split; [done|]. by apply vals_same.
    - (* emplace *) eapply mexec_elem; [done..| | |].
      { intros Hi. simpl. by rewrite Hi. } { intros Hx. simpl. rewrite Hx. by destruct (vals xss !! i). }
      intros h xs hr t a v Hi Hx Hs Hv Hrd Hpost. pose proof (vals_at _ _ _ Hx) as Hvi.
      eapply (ans_iter_new _ _ _ _ _ _ _ _ (fun k => mupper comp k v)); [exact Hs|intros Q; by eapply emplace_equal_spec| |].
      + intros b k t' w' -> Hup Hs' He'. eapply Hpost; [exact Hs'| |intros q Hq; right; by apply keep_ins].
        simpl. rewrite Hvi, Hv, He'. split; [done|]. by rewrite (put_last_ctx k b v).
      + intros e w' Hs' He'. eapply Hpost; [exact Hs'| |by right]. simpl. rewrite Hvi, Hv, He'. split; [done|]. by apply vals_same.
    - (* emplace with hint *) eapply mexec_elem; [done..| | |].
      { intros Hi. simpl. by rewrite Hi. } { intros Hx. simpl. rewrite Hx. by destruct (vals xss !! i). }
      intros h xs hr t a v Hi Hx Hs Hv Hrd Hpost. pose proof (vals_at _ _ _ Hx) as Hvi.
      rbind. eapply (t_iter_at_spec wk); [exact Hs|]. rewrite (tpos_clip (t_hdr (set h)) xs p).
      eapply (ans_iter_new _ _ _ _ _ _ _ _ (fun k => mpos comp k v /\ nearest comp v xs (p `min` length xs) (length (cpre k)))); [exact Hs| | |].
      { intros Q Hok Hfail. eapply emplace_hint_equal_spec; [done|exact Hs|done|done|lia| |done]. intros. by eapply Hok. }
      + intros b k t' w' -> [Hup Hn] Hs' He'. eapply Hpost; [exact Hs'| |intros q Hq; right; by apply keep_ins].
        simpl. rewrite Hvi, Hv, He'. split; [done|]. eexists. split; [|done]. by apply put_near_ctx.
      + intros e w' Hs' He'. eapply Hpost; [exact Hs'| |by right]. simpl. rewrite Hvi, Hv, He'. split; [done|]. by apply vals_same.
    - (* emplace several *) eapply mexec_one; [done..| |]. { intros Hi. simpl. by rewrite Hi. }
      intros h xs hr t Hi Hx Hs Hpost. pose proof (vals_at _ _ _ Hx) as Hvi.
      rbind. eapply emplace_all_spec; [done|exact Hs|done|]. intros ys t' w' n Hs' Hk Hp Hn. apply runs_ret.
      eapply Hpost; [exact Hs'| |by right; apply Hk]. simpl. rewrite Hvi. exists n. split; [by destruct (w_err w')|]. by rewrite Hp.
    - (* erase key *) eapply mexec_elem; [done..| | |].
      { intros Hi. simpl. by rewrite Hi. } { intros Hx. simpl. rewrite Hx. by destruct (vals xss !! i). }
      intros h xs hr t a v Hi Hx Hs Hv Hrd Hpost. pose proof (vals_at _ _ _ Hx) as Hvi.
      destruct (msplits_ex comp Hswo xs v) as (k1 & k2 & Hk1 & Hk2); [apply Hs|].
      pose proof (msplits_le comp Hswo _ _ _ _ Hk1 Hk2) as Hk.
      destruct (ranked_split xs v k1 k2 Hk (proj1 Hk2) Hk1 Hk2) as [Hrk Hwo].
      rbind. eapply merase_key_spec; [done|exact Hs|done|exact Hk1|exact Hk2|]. intros h' t' Hs'. apply runs_ret.
      eapply Hpost; [exact Hs'| |].
      + simpl. rewrite He, Hvi, Hv, Hrk, Hwo. split; [done|]. split; [|done]. f_equal.
        rewrite take_length, drop_length, fmap_length. destruct Hk2. lia.
      + intros p Hp. destruct (keep_del_range xs k1 k2 p Hk Hp) as [(q & Hq & Hqp)|Hp']; [left|by right].
        exists xs, v. split_and!; try done; pose proof (split_class xs v k1 k2 p.2 q Hk1 Hk2) as Hc;
          rewrite list_lookup_fmap, Hqp in Hc; specialize (Hc eq_refl); rewrite bool_decide_true in Hc by lia;
          unfold same_rank in Hc; apply andb_true_iff in Hc as [Hc1%negb_true_iff Hc2%negb_true_iff]; done.
    - (* erase keys *) eapply mexec_one; [done..| |]. { intros Hi. simpl. split; [done|]. by rewrite upd_none. }
      intros h xs hr t Hi Hx Hs Hpost. pose proof (vals_at _ _ _ Hx) as Hvi.
      rbind. eapply erase_keys_spec; [done|exact Hs|]. intros ys t' h' Hs' Hys Hk. apply runs_ret.
      eapply Hpost; [exact Hs'| |].
      + simpl. split; [done|]. erewrite upd_vals by done. by rewrite Hys.
      + intros p Hp. destruct (Hk p Hp) as [(v & Hv & Heq)|]; [left|by right]. by exists xs, v.
    - (* erase *) eapply mexec_one; [done..| |]. { intros Hi. simpl. by rewrite Hi. }
      intros h xs hr t Hi Hx Hs Hpost. pose proof (vals_at _ _ _ Hx) as Hvi.
      rbind. eapply (t_iter_at_spec wk); [exact Hs|]. destruct (decide (p < length xs)) as [Hp|Hp].
      + rewrite decide_False by (by eapply (tpos_ne wk)). unfold ans_iter. rbind. eapply (erase_spec cf wk); [exact Hs|done|].
        intros h' t' Hs'. rbind. rewrite <-(tpos_del (t_hdr (set h)) xs p p) by lia.
        eapply (read_iter_spec wk); [exact Hs'|]. apply runs_ret. eapply Hpost; [exact Hs'| |].
        * simpl. rewrite He, Hvi. split; [done|]. rewrite <-del_pairs. replace (p + 1) with (S p) by lia. split; [done|].
          intros _. f_equal. rewrite !list_lookup_fmap. f_equal.
          rewrite lookup_app_r by (rewrite take_length; lia). rewrite take_length, lookup_drop. f_equal. lia.
        * intros q Hq. destruct (keep_del xs p q Hq) as [Hq'|Hq']; [left|by right]. simpl. by rewrite Hx.
      + rewrite tpos_end by lia. rewrite decide_True by done. apply runs_ret. eapply Hpost; [exact Hs| |by right].
        simpl. rewrite He, Hvi. split; [done|]. rewrite del_ge by (rewrite fmap_length; lia). split; [done|].
        rewrite fmap_length. lia.
    - (* erase range *) eapply mexec_one; [done..| |]. { intros Hi. simpl. by rewrite Hi. }
      intros h xs hr t Hi Hx Hs Hpost. pose proof (vals_at _ _ _ Hx) as Hvi.
      rbind. eapply (t_iter_at_spec wk); [exact Hs|]. rbind. eapply (t_iter_at_spec wk); [exact Hs|].
      rewrite (tpos_clip _ _ p), (tpos_clip _ _ (p + n)). set (i1 := p `min` length xs). set (i2 := (p + n) `min` length xs).
      assert (take i1 xs ++ drop i2 xs = take p xs ++ drop (p + n) xs) as Hcut.
      { unfold i1, i2. f_equal.
        - destruct (decide (p <= length xs)); [by rewrite Nat.min_l|]. rewrite Nat.min_r by lia. by rewrite !take_ge by lia.
        - destruct (decide (p + n <= length xs)); [by rewrite Nat.min_l|]. rewrite Nat.min_r by lia. by rewrite !drop_ge by lia. }
      unfold ans_iter. rbind. eapply (erase_range_spec cf wk); [exact Hs|lia|lia|]. intros h' t' Hs'. rbind.
      replace (tpos (t_hdr (set h)) xs i2) with (tpos (t_hdr (set h)) (take i1 xs ++ drop i2 xs) i1).
      2: { rewrite !tpos_first. f_equal. rewrite drop_app_ge by (rewrite take_length; lia).
           rewrite take_length, drop_drop. f_equal. lia. }
      eapply (read_iter_spec wk); [exact Hs'|]. apply runs_ret. eapply Hpost; [exact Hs'| |].
      + simpl. rewrite He, Hvi, Hcut. split; [done|]. rewrite <-del_pairs. split; [done|].
        f_equal. rewrite !list_lookup_fmap. f_equal. rewrite <-Hcut.
        rewrite lookup_app_r by (rewrite take_length; lia). rewrite take_length, lookup_drop.
        replace (i2 + (i1 - i1 `min` length xs)) with i2 by lia. unfold i2.
        destruct (decide (p + n <= length xs)); [by rewrite Nat.min_l|]. rewrite Nat.min_r by lia.
        by rewrite !(proj2 (lookup_ge_None _ _)) by lia.
      + intros q Hq. rewrite Hcut. destruct (keep_del_range xs p (p + n) q) as [(k & Hk & Hq')|Hq']; [lia|done|left|by right].
        exists xs, k. done.
    - (* clear *) eapply mexec_one; [done..| |]. { intros Hi. simpl. split; [done|]. by rewrite upd_none. }
      intros h xs hr t Hi Hx Hs Hpost. rbind. eapply (clear_spec wk); [exact Hs|]. intros h' Hs'. apply runs_ret.
      eapply Hpost; [exact Hs'| |].
      + simpl. split; [done|]. by erewrite upd_vals.
      + intros p Hp. left. by exists xs.
    - (* copy *) eapply mexec_two; [done..| | |].
      { simpl. intros [->| ->]; [done|]. by destruct (vals xss !! i). }
      + intros h xs hr t <- Hi Hx Hs Hpost. rbind. unfold t_copy. rewrite decide_True by done. apply runs_ret. apply runs_ret.
        eapply Hpost; [exact Hs| |by right]. simpl. rewrite (vals_at _ _ _ Hx), decide_True by done.
        split; [done|]. by apply vals_same.
      + intros h xs h2 xs2 hr Hne Hi Hx Hj Hx2 Hp Hpost. destruct Hp as (hv2 & t & Ho2 & Hd2 & Hs).
        rbind. eapply (copy_spec cf wk); [|done|exact Hs|by apply own_there| |].
        { destruct Hs as ([_ _ _ _ Hnone] & _). simpl. intros ->. destruct Ho2 as (_ & t2 & _ & Hh2 & _).
          specialize (Hnone h2). simpl in Hnone. rewrite (lookup_union_Some_l _ _ _ _ Hh2) in Hnone.
          discriminate Hnone. by left. }
        * intros h' orc zs t' Hzs Hs'. apply runs_ret. eapply (Hpost zs xs2); [by exists hv2, t'| |].
          -- simpl. rewrite (vals_at _ _ _ Hx), (vals_at _ _ _ Hx2), decide_False by done. rewrite Hzs. f_equal. by apply vals_same.
          -- intros p [Hp|Hp]; [left|by right; right]. split; [done|]. by exists xs.
        * intros w' e Hs' He' _. apply runs_ret. eapply (Hpost [] xs2); [by exists hv2, Leaf| |].
          -- simpl. rewrite (vals_at _ _ _ Hx), (vals_at _ _ _ Hx2), decide_False by done. rewrite He'. f_equal. by apply vals_same.
          -- intros p [Hp|Hp]; [left|by right; right]. split; [done|]. by exists xs.
    - (* move *) eapply mexec_two; [done..| | |].
      { simpl. intros H0. split; [done|]. destruct H0 as [->| ->]; [done|]. by destruct (vals xss !! i). }
      + intros h xs hr t <- Hi Hx Hs Hpost. rbind. eapply (move_assign_self_spec wk); [exact Hs|]. intros h' Hs'. apply runs_ret.
        eapply Hpost; [exact Hs'| |].
        * simpl. rewrite (vals_at _ _ _ Hx), decide_True by done. done.
        * intros p Hp. left. by exists xs.
      + intros h xs h2 xs2 hr Hne Hi Hx Hj Hx2 Hp Hpost. rbind. eapply (move_assign_spec wk); [|exact Hp|]; [done|].
        intros h' Hp'. apply runs_ret. eapply Hpost; [exact Hp'| |].
        * simpl. rewrite (vals_at _ _ _ Hx), (vals_at _ _ _ Hx2), decide_False by done. done.
        * intros p [Hq|Hq]; [left; by exists xs|by right; left].
    - (* swap *) eapply mexec_two; [done..| | |].
      { simpl. intros H0. split; [done|]. destruct H0 as [->| ->]; [done|]. by destruct (vals xss !! i). }
      + intros h xs hr t <- Hi Hx Hs Hpost. rbind. eapply (swap_self_spec wk); [exact Hs|]. apply runs_ret.
        eapply Hpost; [exact Hs| |by right].
        simpl. rewrite (vals_at _ _ _ Hx). by rewrite list_insert_insert.
      + intros h xs h2 xs2 hr Hne Hi Hx Hj Hx2 Hp Hpost. rbind. eapply (swap_spec wk); [|exact Hp|]; [done|].
        intros h' Hp'. apply runs_ret. eapply Hpost; [exact Hp'| |].
        * simpl. rewrite (vals_at _ _ _ Hx), (vals_at _ _ _ Hx2). done.
        * intros p [Hq|Hq]; right; [by right|by left].
    - (* find *) eapply mexec_elem; [done..| | |].
      { intros Hi. simpl. by rewrite Hi. } { intros Hx. simpl. rewrite Hx. by destruct (vals xss !! i). }
      intros h xs hr t a v Hi Hx Hs Hv Hrd Hpost. pose proof (vals_at _ _ _ Hx) as Hvi.
      destruct (msplits_ex comp Hswo xs v) as (k1 & k2 & Hk1 & Hk2); [apply Hs|].
      pose proof (msplits_le comp Hswo _ _ _ _ Hk1 Hk2) as Hk.
      destruct (ranked_split xs v k1 k2 Hk (proj1 Hk2) Hk1 Hk2) as [Hrk _].
      unfold ans_iter. rbind. eapply mfind_spec; [done|exact Hs|done|exact Hk1|exact Hk2|].
      replace (if decide (k1 < k2) then tpos (t_hdr (set h)) xs k1 else t_end (set h))
        with (tpos (t_hdr (set h)) xs (if decide (k1 < k2) then k1 else length xs)) by (case_decide; [done|by apply tpos_end]).
      rbind. eapply (read_iter_spec wk); [exact Hs|]. apply runs_ret. eapply Hpost; [exact Hs| |by right].
      simpl. rewrite Hvi, Hv, vals_same by done. split_and!; [done|done|]. f_equal. rewrite Hrk. case_decide as Hlt.
      + destruct (lookup_lt_is_Some_2 xs.*2 k1) as [u Hu]; [rewrite fmap_length; destruct Hk2; lia|].
        rewrite Hu. erewrite drop_at by done. by replace (k2 - k1) with (S (k2 - S k1)) by lia.
      + replace (k2 - k1) with 0 by lia. simpl. apply lookup_ge_None. by rewrite fmap_length.
    - (* lower_bound *) eapply mexec_elem; [done..| | |].
      { intros Hi. simpl. by rewrite Hi. } { intros Hx. simpl. rewrite Hx. by destruct (vals xss !! i). }
      intros h xs hr t a v Hi Hx Hs Hv Hrd Hpost. pose proof (vals_at _ _ _ Hx) as Hvi.
      unfold ans_iter. rbind. eapply mlower_bound_spec; [done|exact Hs|done|]. intros k Hk. rbind. eapply (read_iter_spec wk); [exact Hs|].
      apply runs_ret. eapply Hpost; [exact Hs| |by right]. simpl. rewrite Hvi, Hv, vals_same by done. split_and!; [done|done|].
      f_equal. by rewrite (splits_head _ _ _ Hk).
    - (* upper_bound *) eapply mexec_elem; [done..| | |].
      { intros Hi. simpl. by rewrite Hi. } { intros Hx. simpl. rewrite Hx. by destruct (vals xss !! i). }
      intros h xs hr t a v Hi Hx Hs Hv Hrd Hpost. pose proof (vals_at _ _ _ Hx) as Hvi.
      unfold ans_iter. rbind. eapply mupper_bound_spec; [done|exact Hs|done|]. intros k Hk. rbind. eapply (read_iter_spec wk); [exact Hs|].
      apply runs_ret. eapply Hpost; [exact Hs| |by right]. simpl. rewrite Hvi, Hv, vals_same by done. split_and!; [done|done|].
      f_equal. rewrite (splits_head _ _ _ Hk). f_equal. apply list_filter_iff. intros u. apply negb_false_iff.
    - (* equal_range *) eapply mexec_elem; [done..| | |].
      { intros Hi. simpl. by rewrite Hi. } { intros Hx. simpl. rewrite Hx. by destruct (vals xss !! i). }
      intros h xs hr t a v Hi Hx Hs Hv Hrd Hpost. pose proof (vals_at _ _ _ Hx) as Hvi.
      rbind. eapply mequal_range_spec; [done|exact Hs|done|]. intros k1 k2 Hk1 Hk2.
      pose proof (msplits_le comp Hswo _ _ _ _ Hk1 Hk2) as Hk.
      destruct (ranked_split xs v k1 k2 Hk (proj1 Hk2) Hk1 Hk2) as [Hrk _].
      rbind. apply runs_cell_fuel. rbind. cbn [fst snd]. pose proof (sin_fuel wk _ _ _ _ _ Hs). destruct Hk2 as [Hk2 _].
      eapply walk_part_spec; [exact Hs|done|done|lia|]. apply runs_ret. eapply Hpost; [exact Hs| |by right].
      simpl. rewrite Hvi, Hv, vals_same by done. by rewrite Hrk.
    - (* count *) eapply mexec_elem; [done..| | |].
      { intros Hi. simpl. by rewrite Hi. } { intros Hx. simpl. rewrite Hx. by destruct (vals xss !! i). }
      intros h xs hr t a v Hi Hx Hs Hv Hrd Hpost. pose proof (vals_at _ _ _ Hx) as Hvi.
      destruct (msplits_ex comp Hswo xs v) as (k1 & k2 & Hk1 & Hk2); [apply Hs|].
      pose proof (msplits_le comp Hswo _ _ _ _ Hk1 Hk2) as Hk.
      destruct (ranked_split xs v k1 k2 Hk (proj1 Hk2) Hk1 Hk2) as [Hrk _].
      rbind. eapply mcount_spec; [done|exact Hs|done|exact Hk1|exact Hk2|]. apply runs_ret. eapply Hpost; [exact Hs| |by right].
      simpl. rewrite Hvi, Hv, vals_same by done. split_and!; [done|done|]. f_equal.
      rewrite Hrk, take_length, drop_length, fmap_length. destruct Hk2. lia.
  Qed.

  (** ** Histories *)

  Lemma runs_exec_mops ops hds xss hv hf w (Q : _ -> W -> Prop) :
    swo comp -> srow hds xss hv -> heap_is w hv hf ->
    (forall rs xss' hv' w', srow hds xss' hv' -> heap_is w' hv' hf -> mops_spec comp ops (vals xss) rs (vals xss') -> Q rs w') ->
    runs (exec_mops cf comp ops (objs hds)) w Q.
  Proof.
    intros Hswo. revert xss hv w Q. induction ops as [|op ops IH]; intros xss hv w Q Hr Hh HQ; simpl.
    - apply runs_ret. by eapply HQ.
    - rbind. apply runs_put_err. rbind. eapply runs_mono; [eapply runs_exec_mop; [done|exact Hr| |]; [exact Hh|done]|].
      intros a w1 (xss1 & hv1 & Hr1 & Hh1 & Hs & _). rbind. apply runs_get_err. rbind.
      eapply IH; [exact Hr1|exact Hh1|]. intros rs xss' hv' w' Hr' Hh' Hs'. apply runs_ret. eapply HQ; [done..|]. simpl. by exists (vals xss1).
  Qed.

  Lemma msin_shows o xs hf t w : swo comp -> sin o xs (w_heap w) hf t -> mset_shows comp w o xs.*2.
  Proof.
    intros Hswo Hs. split_and!.
    - apply ascending_wk. apply asc_ascending. apply Hs.
    - apply t_runs_state. intros Q HQ. eapply (size_spec wk); [exact Hs|]. by rewrite fmap_length in HQ.
    - apply t_runs_state. intros Q HQ. eapply (empty_spec wk); [exact Hs|]. by destruct xs.
    - apply t_runs_state. intros Q HQ. unfold t_walk. rbind. eapply (begin_spec wk); [exact Hs|]. rbind. apply runs_cell_fuel.
      eapply (t_walk_loop_spec wk); [exact Hs|lia| |done]. pose proof (sin_fuel wk _ _ _ _ _ Hs). lia.
    - apply t_runs_state. intros Q HQ. unfold t_rwalk. rbind. eapply (begin_spec wk); [exact Hs|]. rbind. apply runs_cell_fuel.
      replace (t_end o) with (tpos (t_hdr o) xs (length xs)) by (by apply tpos_end).
      eapply (t_rwalk_loop_spec wk); [exact Hs|lia| |]. { by eapply sin_fuel. }
      by rewrite take_ge by (by rewrite fmap_length).
    - intros v. apply t_runs_state. intros Q HQ.
      destruct (msplits_ex comp Hswo xs v) as (k1 & k2 & Hk1 & Hk2); [apply Hs|].
      pose proof (msplits_le comp Hswo _ _ _ _ Hk1 Hk2) as Hk.
      destruct (ranked_split xs v k1 k2 Hk (proj1 Hk2) Hk1 Hk2) as [Hrk _].
      eapply mcount_spec; [done|exact Hs|done|exact Hk1|exact Hk2|].
      rewrite Hrk, take_length, drop_length, fmap_length in HQ. destruct Hk2 as [Hk2 _].
      by replace ((k2 - k1) `min` (length xs - k1)) with (k2 - k1) in HQ by lia.
  Qed.
  Lemma mrow_shows hds xss hv hf w i h xs : swo comp -> srow hds xss hv -> heap_is w hv hf ->
    hds !! i = Some h -> xss !! i = Some xs -> mset_shows comp w (set h) xs.*2.
  Proof.
    intros Hswo Hr Hh Hi Hx. destruct (srow_at _ _ _ _ _ _ _ _ Hr Hi Hx) as (R & _ & Ho & _).
    destruct (own_get _ _ _ _ _ _ _ _ Ho Hh) as (hr & t & _ & _ & Hs). by eapply msin_shows.
  Qed.
End hist.
