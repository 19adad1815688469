(** * Lists: the cases the partial theorems leave out *)
From Verif Require Export Stops ListMore.

Section exact.
  Context {V : Type} (cf : cfg V).
  Notation H := (gmap addr (lcell V)).
  Notation W := (world (lcell V)).
  Notation L := (list (addr * list (addr * V))).
  Implicit Types hv hf : H.
  Implicit Types w : W.
  Implicit Types ls R : L.

  (** ** transfer to the position right behind the range *)

  Lemma transfer_behind_fault w hv hf ps this first (Q : _ -> W -> Prop) :
    heap_is w hv hf -> rings ps hv -> this ∈ ps.*1 -> first ∈ ps.*1 -> c_dbg cf = true ->
    stops FAssert (transfer cf this first this) w Q.
  Proof.
    intros Hh Hr Ht Hf Hdbg. unfold transfer.
    sstep. eapply runs_check_ring; [done..|]. sstep. eapply runs_check_ring; [done..|].
    sstep. eapply runs_check_ring; [done..|].
    apply stops_fault_bind. unfold assert_. rewrite Hdbg, bool_decide_true by done. done.
  Qed.

  (** Without assertions the range becomes a ring of its own. *)
  Lemma runs_transfer_behind w hv hf ps this first fp lp (R : list (addr * addr)) (Q : _ -> W -> Prop) :
    heap_is w hv hf -> rings ps hv -> c_dbg cf = false ->
    ps ≡ₚ (fp, first) :: (lp, this) :: R ->
    (forall hv', rings ((fp, this) :: (lp, first) :: R) hv' ->
       dom hv' = dom hv -> (forall x, bd hv' x = bd hv x) ->
       heap_is (set_heap (hv' ∪ hf) w) hv' hf -> Q tt (set_heap (hv' ∪ hf) w)) ->
    runs (transfer cf this first this) w Q.
  Proof.
    intros Hh Hr Hdbg Hps HQ. apply (rings_perm _ _ _ Hps) in Hr. clear ps Hps.
    pose proof Hr as (Hf & Hn1 & He).
    assert (Hn2 : NoDup ((fp, first) :: (lp, this) :: R).*2) by by rewrite <-He.
    simpl in Hn1, Hn2, He.
    repeat (apply Forall_cons in Hf; destruct Hf as [? Hf]); simpl in *.
    repeat match goal with HH : link _ _ _ |- _ => pose proof (link_some_l _ _ _ HH); pose proof (link_some_r _ _ _ HH);
      let a := fresh "Hnx" in let b := fresh "Hpv" in destruct HH as [a b] end.
    repeat match goal with HH : NoDup (_ :: _) |- _ => let a := fresh "Hni" in let b := fresh "Hnd" in
      apply NoDup_cons in HH; destruct HH as [a b]; rewrite ?not_elem_of_cons in a end.
    assert (Hthis : this ∈ ((fp, first) :: (lp, this) :: R).*1) by (simpl; rewrite He, !elem_of_cons; tauto).
    assert (Hfirst : first ∈ ((fp, first) :: (lp, this) :: R).*1) by (simpl; rewrite He, !elem_of_cons; tauto).
    destruct_and?.
    unfold transfer.
    rbind. eapply runs_check_ring; [done..|]. rbind. eapply runs_check_ring; [done..|].
    rbind. eapply runs_check_ring; [done..|].
    rbind. unfold assert_ at 1. rewrite Hdbg. apply runs_ret.
    rbind. eapply runs_get_prev; [done..|].
    rbind. eapply runs_set_next; [done..|].
    assert (Hh1 : heap_is (set_heap (sn lp this hv ∪ hf) w) (sn lp this hv) hf)
      by (eapply heap_is_upd; [done|by rewrite dom_sn]).
    rbind. eapply runs_get_prev; [done|by rewrite pv_sn|].
    rbind. eapply runs_set_next; [done|by rewrite some_sn|]. simpl.
    set (h2 := sn fp this _). assert (Hh2 : heap_is (set_heap (h2 ∪ hf) w) h2 hf)
      by (eapply heap_is_upd; [done|by unfold h2; rewrite !dom_sn]).
    rbind. eapply runs_get_prev; [done|by unfold h2; rewrite !pv_sn|].
    rbind. eapply runs_set_next; [done|unfold h2; by rewrite !some_sn|].
    change (set_heap ?x (set_heap _ w)) with (set_heap x w).
    set (h3 := sn lp first h2). assert (Hh3 : heap_is (set_heap (h3 ∪ hf) w) h3 hf)
      by (eapply heap_is_upd; [done|by unfold h3, h2; rewrite !dom_sn]).
    rbind. eapply runs_get_prev; [done|by unfold h3, h2; rewrite !pv_sn|].
    rbind. eapply runs_get_prev; [done|by unfold h3, h2; rewrite !pv_sn|].
    rbind. eapply runs_set_prev; [done|unfold h3, h2; by rewrite !some_sn|].
    change (set_heap ?x (set_heap _ w)) with (set_heap x w).
    set (h4 := sp this lp h3). assert (Hh4 : heap_is (set_heap (h4 ∪ hf) w) h4 hf)
      by (eapply heap_is_upd; [done|by unfold h4, h3, h2; rewrite ?dom_sp, !dom_sn]).
    rbind. eapply runs_get_prev; [done| |].
    { unfold h4, h3, h2. rewrite pv_sp by (by rewrite !some_sn). rewrite decide_False by congruence. by rewrite !pv_sn. }
    rbind. eapply runs_set_prev; [done|unfold h4, h3, h2; by rewrite some_sp, !some_sn|].
    change (set_heap ?x (set_heap _ w)) with (set_heap x w).
    set (h5 := sp this fp h4). assert (Hh5 : heap_is (set_heap (h5 ∪ hf) w) h5 hf)
      by (eapply heap_is_upd; [done|by unfold h5, h4, h3, h2; rewrite !dom_sp, !dom_sn]).
    rbind. eapply runs_set_prev; [done|unfold h5, h4, h3, h2; by rewrite !some_sp, !some_sn|].
    change (set_heap ?x (set_heap _ w)) with (set_heap x w).
    set (h6 := sp first lp h5). assert (Hh6 : heap_is (set_heap (h6 ∪ hf) w) h6 hf)
      by (eapply heap_is_upd; [done|by unfold h6, h5, h4, h3, h2; rewrite !dom_sp, !dom_sn]).
    assert (Hnx6 : forall x, nx h6 x = if decide (x = lp) then Some first else if decide (x = fp) then Some this else nx hv x).
    { intros x. unfold h6, h5, h4. rewrite !nx_sp. unfold h3, h2. rewrite !nx_sn by (by rewrite ?some_sn).
      repeat case_decide; try done; congruence. }
    assert (Hpv6 : forall x, pv h6 x = if decide (x = first) then Some lp else if decide (x = this) then Some fp else pv hv x).
    { intros x. unfold h6, h5, h4. rewrite !pv_sp by (unfold h3, h2; by rewrite ?some_sp, ?some_sn).
      unfold h3, h2. rewrite !pv_sn. repeat case_decide; try done; congruence. }
    assert (Hbd : forall x, bd h6 x = bd hv x).
    { intros x. unfold h6, h5, h4, h3, h2. by rewrite !bd_sp, !bd_sn. }
    assert (Hr6 : rings ((fp, this) :: (lp, first) :: R) h6).
    { split.
      - repeat (apply Forall_cons_2; [split; simpl; rewrite ?Hnx6, ?Hpv6;
          repeat (first [rewrite decide_True by congruence|rewrite decide_False by congruence]); done|]).
        eapply (links_other R hv h6 [fp; lp] [first; this]).
        + done.
        + intros x Hx. rewrite !not_elem_of_cons. split_and!; [..|apply not_elem_of_nil]; intros ->; done.
        + intros x Hx. rewrite !not_elem_of_cons. split_and!; [..|apply not_elem_of_nil]; intros ->; done.
        + intros x Hx. rewrite !not_elem_of_cons in Hx. destruct_and?. rewrite Hnx6. by rewrite !decide_False by done.
        + intros x Hx. rewrite !not_elem_of_cons in Hx. destruct_and?. rewrite Hpv6. by rewrite !decide_False by done.
      - simpl. split.
        + repeat (apply NoDup_cons; split); rewrite ?not_elem_of_cons; try done; split_and!; done || congruence.
        + etrans; [|etrans; [exact He|]]; perm_solve. }
    assert (Hin : forall x, x ∈ ((fp, first) :: (lp, this) :: R).*1 -> x ∈ ((fp, this) :: (lp, first) :: R).*1) by done.
    rbind. eapply runs_check_ring; [done|done|by apply Hin|]. rbind. eapply runs_check_ring; [done|done|by apply Hin|].
    eapply runs_check_ring; [done|done|by apply Hin|].
    apply HQ; try done. unfold h6, h5, h4, h3, h2. by rewrite !dom_sp, !dom_sn.
  Qed.

  (** The list keeps the rest; [hm] consists of the nodes of the range, which
      no list reaches any more. *)
  Lemma runs_splice_behind w al hdr l m r R hv hf (Q : _ -> W -> Prop) :
    heap_is w hv hf -> lists_own al ((hdr, l ++ m ++ r) :: R) hv -> m <> [] -> c_dbg cf = false ->
    (forall hm w', dom hm = list_to_set m.*1 -> hm ##ₘ hf -> lists_are al ((hdr, l ++ r) :: R) (hm ∪ hf) w' ->
       no_calls w w' -> Q tt w') ->
    runs (lst_splice_range cf (hdx r.*1 hdr) (hdx m.*1 hdr) (hdx r.*1 hdr)) w Q.
  Proof.
    intros Hh Ho Hm Hdbg HQ. destruct m as [|[y v] m]; [done|].
    pose proof (own_rings _ _ _ Ho) as Hr.
    assert (Hy : y ∈ list_addrs ((hdr, l ++ ((y, v) :: m) ++ r) :: R)) by apply node_in.
    assert (Hp : hdx r.*1 hdr ∈ list_addrs ((hdr, l ++ ((y, v) :: m) ++ r) :: R)) by (rewrite (assoc_L (++)); apply hdx_in).
    unfold lst_splice_range. simpl (hdx _ _).
    rbind. eapply runs_it_eq; [done|exact Ho|done|done|].
    rewrite bool_decide_false.
    2: { destruct r as [|[z t] r]; simpl; [by eapply own_hdr_ne|].
         eapply (own_nodup_at _ _ l y v _ _ _ z t m); [exact Ho|done]. }
    unfold lst_transfer.
    rbind. eapply runs_it_node; [done|exact Ho|done|].
    rbind. eapply runs_it_node; [done|exact Ho|done|].
    rbind. eapply runs_it_node; [done|exact Ho|done|].
    eapply (runs_transfer_behind w hv hf _ _ y (lastd hdr l.*1) (lastd y m.*1)
      (opath hdr l.*1 ++ opath y m.*1 ++ tpath r.*1 hdr ++ pairs R)); [done|exact Hr|done|..].
    { rewrite !pairs_cons, !fmap_app, !fmap_cons, !path_split, !tpath_app. simpl (hdx _ _); simpl ((_, _).1). perm_solve. }
    intros hv' (Hf & _) Hdm Hbd [_ Hd'].
    set (A := list_to_set ((y, v) :: m).*1 : gset addr).
    pose proof Ho as (Hnd & Hda & _). destruct (own_bodies _ _ _ Ho) as [Hb1 Hb2].
    assert (Hmap : hv' = filter (fun p => p.1 ∉ A) hv' ∪ filter (fun p => p.1 ∈ A) hv').
    { rewrite map_union_comm by (apply map_disjoint_filter_complement || (symmetry; apply map_disjoint_filter_complement)).
      symmetry. apply map_filter_union_complement. }
    assert (Hsub : list_addrs ((hdr, l ++ ((y, v) :: m) ++ r) :: R) ≡ₚ ((y, v) :: m).*1 ++ list_addrs ((hdr, l ++ r) :: R)).
    { rewrite !list_addrs_cons, !fmap_app. perm_solve. }
    apply (HQ (filter (fun p => p.1 ∈ A) hv')).
    - rewrite map_filter_alt. apply set_eq. intros x. rewrite elem_of_dom.
      split.
      + intros [c Hc]. rewrite <-map_filter_alt in Hc. by apply map_filter_lookup_Some in Hc as [_ Hc].
      + intros Hx. rewrite <-map_filter_alt. assert (is_Some (hv' !! x)) as [c Hc].
        { apply elem_of_dom. rewrite Hdm. apply elem_of_dom, Hda. rewrite Hsub. apply elem_of_app. left. by apply elem_of_list_to_set in Hx. }
        exists c. by apply map_filter_lookup_Some.
    - eapply map_disjoint_weaken_l; [exact Hd'|]. apply map_filter_subseteq.
    - exists (filter (fun p => p.1 ∉ A) hv'). split.
      + rewrite Hsub in Hnd. apply NoDup_app in Hnd as (_ & HnA & Hnd).
        assert (HA : forall x, x ∈ list_addrs ((hdr, l ++ r) :: R) -> x ∉ A).
        { intros x Hx HxA. apply (HnA x); [|done]. by apply elem_of_list_to_set in HxA. }
        assert (Hag : forall x, x ∉ A -> filter (fun p => p.1 ∉ A) hv' !! x = hv' !! x).
        { intros x Hx. destruct (hv' !! x) as [c|] eqn:E; [by apply map_filter_lookup_Some|].
          apply map_filter_lookup_None. by left. }
        apply own_intro.
        * done.
        * intros x. rewrite <-elem_of_dom. split.
          -- intros [c [Hc Hx]%map_filter_lookup_Some]%elem_of_dom. simpl in Hx.
             assert (Hx2 : x ∈ list_addrs ((hdr, l ++ ((y, v) :: m) ++ r) :: R)).
             { apply Hda, elem_of_dom. rewrite <-Hdm. apply elem_of_dom. by exists c. }
             rewrite Hsub, elem_of_app in Hx2. destruct Hx2 as [Hx2|Hx2]; [|done]. destruct Hx. by apply elem_of_list_to_set.
          -- intros Hx. apply elem_of_dom. rewrite Hag by by apply HA. apply elem_of_dom. rewrite Hdm. apply elem_of_dom, Hda.
             rewrite Hsub. apply elem_of_app. by right.
        * eapply (links_agree _ hv'); [|intros x Hx; rewrite pairs_fst, pairs_snd in Hx; apply Hag, HA; tauto].
          rewrite pairs_cons, fmap_app, path_split. rewrite Forall_forall in Hf |- *. intros p Hpp. apply Hf.
          revert Hpp. clear. rewrite !elem_of_cons, !elem_of_app, !elem_of_cons. tauto.
        * intros x Hx. unfold bd. rewrite Hag; [|apply HA; rewrite list_addrs_perm; apply elem_of_app; by left].
          change (bd hv' x = Some LHead). rewrite Hbd. by apply Hb1.
        * intros x u Hx. unfold bd. rewrite Hag.
          2: { apply HA; rewrite list_addrs_perm; apply elem_of_app; right. apply elem_of_list_fmap. by exists (x, u). }
          change (bd hv' x = Some (LNode al (Some u))). rewrite Hbd. apply Hb2.
          revert Hx. clear. simpl. rewrite !elem_of_app, !elem_of_cons, !elem_of_app. tauto.
      + split.
        * simpl. rewrite (assoc_L (∪)), <-Hmap. done.
        * apply map_disjoint_union_r. split.
          -- symmetry. apply map_disjoint_filter_complement.
          -- eapply map_disjoint_weaken_l; [exact Hd'|]. apply map_filter_subseteq.
    - done.
  Qed.

  Lemma splice_behind_fault w al hdr l m r R hv hf :
    heap_is w hv hf -> lists_own al ((hdr, l ++ m ++ r) :: R) hv -> m <> [] -> c_dbg cf = true ->
    lst_splice_range cf (hdx r.*1 hdr) (hdx m.*1 hdr) (hdx r.*1 hdr) w = Fault FAssert.
  Proof.
    intros Hh Ho Hm Hdbg. destruct m as [|[y v] m]; [done|].
    pose proof (own_rings _ _ _ Ho) as Hr.
    assert (Hy : y ∈ list_addrs ((hdr, l ++ ((y, v) :: m) ++ r) :: R)) by apply node_in.
    assert (Hp : hdx r.*1 hdr ∈ list_addrs ((hdr, l ++ ((y, v) :: m) ++ r) :: R)) by (rewrite (assoc_L (++)); apply hdx_in).
    unfold lst_splice_range. simpl (hdx _ _). apply (stops_false FAssert).
    sstep. eapply runs_it_eq; [done|exact Ho|done|done|].
    rewrite bool_decide_false.
    2: { destruct r as [|[z t] r]; simpl; [by eapply own_hdr_ne|].
         eapply (own_nodup_at _ _ l y v _ _ _ z t m); [exact Ho|done]. }
    unfold lst_transfer.
    sstep. eapply runs_it_node; [done|exact Ho|done|].
    sstep. eapply runs_it_node; [done|exact Ho|done|].
    sstep. eapply runs_it_node; [done|exact Ho|done|].
    eapply transfer_behind_fault; [done|exact Hr|by rewrite pairs_fst..|done].
  Qed.

  (** ** Copying a list to itself *)

  Lemma create_node_raw w al hdr a c :
    w_heap w !! a = Some c -> ln_body c = LHead -> w_err w = None ->
    stops FRaw (create_node cf (Lst al hdr) (LARef a)) w (fun r w' =>
      r = None /\ w_heap w' = w_heap w /\ exists e, w_err w' = Some e /\ node_error cf e).
  Proof.
    intros Hc Hb He. unfold create_node. sstep. apply runs_alloc_cell.
    - intros b orc Hbn. sstep. apply runs_has_err. simpl. rewrite He.
      assert (Hr : forall w1 c1, w_heap w1 = <[b := c1]> (w_heap w) -> read_larg (LARef a) w1 = Fault FRaw).
      { intros w1 c1 Hw1. unfold read_larg, lread, load, bind, get_heap. rewrite Hw1, lookup_insert_ne by (intros ->; congruence).
        rewrite Hc. simpl. by rewrite Hb. }
      apply stops_bind. unfold construct. destruct (c_kind cf) eqn:Hk.
      + sstep. apply runs_tick_ctor. apply stops_fault_bind. by eapply Hr.
      + sstep. apply runs_tick_ctor. apply stops_fault_bind. by eapply Hr.
      + sstep. apply runs_tick_ctor. sstep. apply runs_next_event. intros ev orc'; simpl. destruct ev as [code|].
        * sstep. apply runs_put_err. sstep. apply runs_has_err; simpl. apply stops_ret. sstep. apply runs_has_err; simpl.
          sstep. eapply runs_deallocate_node; [simpl; reflexivity|]. apply stops_ret. simpl. split; [done|].
          split; [by apply delete_notin|]. eexists. split; [done|]. right. split; [congruence|]. by eexists.
        * sstep. eapply runs_lplace; [simpl; reflexivity|done|]. sstep. apply runs_has_err; simpl.
          apply stops_fault_bind. by eapply Hr.
    - intros orc. sstep. apply runs_has_err. simpl. split; [done|]. split; [done|]. eexists. split; [done|]. by left.
  Qed.

  (** push_back of the header of a ring as if it were an element *)
  Lemma push_back_raw w al hdr xs R hv hf a c :
    heap_is w hv hf -> lists_own al ((hdr, xs) :: R) hv ->
    w_heap w !! a = Some c -> ln_body c = LHead -> w_err w = None ->
    stops FRaw (lst_push_back cf (Lst al hdr) (LARef a)) w (fun _ w' =>
      w_heap w' = w_heap w /\ exists e, w_err w' = Some e /\ node_error cf e).
  Proof.
    intros Hh Ho Hc Hb He. unfold lst_push_back, lst_insert, lst_emplace. sstep. eapply runs_end; [done..|].
    apply stops_bind. apply stops_bind. eapply stops_mono; [by eapply create_node_raw|]. cbv beta.
    intros r w1 (-> & Hw & e & He1 & Hne). sstep. apply runs_has_err. rewrite He1. apply runs_stops.
    eapply runs_end; [by eapply heap_is_eq|exact Ho|]. apply runs_stops, runs_ret. eauto.
  Qed.

  Lemma stops_push_nodes_past fuel w al hdr xs ht a m R hv hf (Q : _ -> W -> Prop) :
    heap_is w hv hf -> lists_own al ((hdr, xs) :: (ht, a ++ m) :: R) hv -> w_err w = None -> length m + 1 < fuel ->
    (forall k m' hv' w' e, k <= length m -> m'.*2 = take k m.*2 -> lists_own al ((hdr, xs ++ m') :: (ht, a ++ m) :: R) hv' ->
       heap_is w' hv' hf -> w_err w' = Some e -> node_error cf e -> Q tt w') ->
    stops FRaw (push_nodes_loop cf fuel (Lst al hdr) (hdx m.*1 ht) hdr) w Q.
  Proof.
    revert w hv xs a m. induction fuel as [|fuel IH]; intros w hv xs a m Hh Ho He Hf HQ; [lia|].
    assert (Ho2 : lists_own al ((ht, a ++ m) :: (hdr, xs) :: R) hv).
    { eapply own_perm; [|done]. apply perm_swap. }
    assert (Hne : hdx m.*1 ht <> hdr).
    { intros E. destruct Ho as (Hn & _). apply nodup_hdr in Hn as (_ & _ & Hn & _). apply Hn. rewrite <-E. apply hdx_in. }
    simpl. sstep. eapply runs_it_eq; [done|exact Ho2|apply hdx_in|rewrite list_addrs_cons; apply elem_of_app; right; apply hdr_in|].
    rewrite bool_decide_false by done.
    sstep. eapply runs_check_own; [done|exact Ho2|apply hdx_in|].
    destruct m as [|[y v] m]; simpl.
    - assert (Hb : bd hv ht = Some LHead).
      { destruct (own_bodies _ _ _ Ho2) as [Hb _]. apply Hb. simpl. apply elem_of_cons. by left. }
      unfold bd in Hb. destruct (hv !! ht) as [c|] eqn:Hc; [|done]. simpl in Hb. simplify_eq.
      apply stops_bind. eapply stops_mono; [eapply (push_back_raw w al hdr xs _ hv hf ht c); [done|exact Ho| |done|done]|].
      { destruct Hh as [-> _]. by apply lookup_union_Some_l. }
      cbv beta. intros _ w' (Hw & e & He' & Hnee). sstep. apply runs_has_err. rewrite He'. apply stops_ret.
      eapply (HQ 0 []); [lia|done|by rewrite app_nil_r|by eapply heap_is_eq|done|done].
    - simpl in Hf. sstep. eapply (runs_push_back _ _ _ _ _ _ _ _ _ v); [done|exact Ho|done|simpl; left; set_solver| |].
      + intros c hv' w' Ha Ho' Hh' He' _ _. sstep. apply runs_has_err. rewrite He'.
        assert (Ho2' : lists_own al ((ht, a ++ (y, v) :: m) :: (hdr, xs ++ [(c, v)]) :: R) hv').
        { eapply own_perm; [|exact Ho']. apply perm_swap. }
        sstep. eapply runs_it_inc; [done|exact Ho2'|].
        eapply (IH w' hv' (xs ++ [(c, v)]) (a ++ [(y, v)]) m); try done.
        * by rewrite <-(assoc_L (++) a).
        * lia.
        * intros k m' hv2 w2 e Hk Hm Ho3 Hh2 He2 Hnee. rewrite <-(assoc_L (++) a) in Ho3. simpl in Ho3.
          eapply (HQ (S k) ((c, v) :: m')); [simpl; lia|simpl; by f_equal|by rewrite <-(assoc_L (++)) in Ho3|done..].
      + intros w' e Hw' He' Hnee _. sstep. apply runs_has_err. rewrite He'. apply stops_ret.
        eapply (HQ 0 []); [lia|done|by rewrite app_nil_r|by eapply heap_is_eq|done..].
  Qed.

  (** assignment from a range of the list itself up to its end *)
  Lemma stops_assign_to_end w al hdr a m R hv hf (Q : _ -> W -> Prop) :
    heap_is w hv hf -> lists_own al ((hdr, a ++ m) :: R) hv -> w_err w = None -> m <> [] -> c_dflt cf = al ->
    (forall k zs hv' w' e, k <= length m -> zs.*2 = take k m.*2 -> lists_own al ((hdr, zs) :: R) hv' ->
       heap_is w' hv' hf -> w_err w' = Some e -> node_error cf e -> Q tt w') ->
    stops FRaw (lst_assign_nodes cf (Lst al hdr) (hdx m.*1 hdr) hdr) w Q.
  Proof.
    intros Hh Ho He Hm Hal HQ. unfold lst_assign_nodes. rewrite Hal. sstep. eapply runs_lst_new; [done..|].
    intros t hv1 _ Ho1 Hh1. sstep. eapply (runs_lst_swap cf _ al t [] hdr (a ++ m)); [done..|]. intros hv2 Ho2 Hh2.
    assert (Ho2' : lists_own al ((hdr, []) :: (t, a ++ m) :: R) hv2) by (eapply own_perm; [|exact Ho2]; perm_solve).
    sstep. eapply runs_heap_fuel; [exact Hh2|exact Ho2'|]. intros fuel Hfu. rewrite list_addrs_cons in Hfu. simpl in Hfu.
    rewrite app_length, fmap_length, !app_length in Hfu.
    assert (Hhd : hdx m.*1 hdr = hdx m.*1 t) by (by destruct m). rewrite Hhd.
    apply stops_bind. eapply (stops_push_nodes_past fuel _ al hdr [] t a m R); [exact Hh2|exact Ho2'|done|lia|].
    intros k m' hv3 w3 e Hk Hm' Ho3 Hh3 He3 Hne. apply runs_stops.
    eapply (runs_drop_tmp _ al t (a ++ m) ((hdr, m') :: R)); [exact Hh3|eapply own_perm; [|exact Ho3]; perm_solve|].
    intros hv4 w4 Ho4 Hh4 He4. eapply (HQ k); [done|exact Hm'|exact Ho4|exact Hh4|by rewrite He4|done].
  Qed.

  (** ... and from the empty range at its end *)
  Lemma runs_assign_at_end w al hdr xs R hv hf (Q : _ -> W -> Prop) :
    heap_is w hv hf -> lists_own al ((hdr, xs) :: R) hv -> c_dflt cf = al \/ xs = [] ->
    (forall hv' w', lists_own al ((hdr, []) :: R) hv' -> heap_is w' hv' hf -> w_err w' = w_err w -> Q tt w') ->
    runs (lst_assign_nodes cf (Lst al hdr) hdr hdr) w Q.
  Proof.
    intros Hh Ho Hal HQ. unfold lst_assign_nodes. rbind. eapply runs_lst_new; [done..|].
    intros t hv1 _ Ho1 Hh1. rbind. eapply (runs_lst_swap cf _ al t [] hdr xs); [done..|]. intros hv2 Ho2 Hh2.
    assert (Ho2' : lists_own al ((hdr, []) :: (t, xs) :: R) hv2) by (eapply own_perm; [|exact Ho2]; perm_solve).
    rbind. eapply runs_heap_fuel; [exact Hh2|exact Ho2'|]. intros fuel Hfu. destruct fuel; [lia|].
    rbind. simpl. rbind. eapply runs_it_eq; [exact Hh2|exact Ho2'|apply hdr_in..|]. rewrite bool_decide_true by done. apply runs_ret.
    eapply (runs_drop_tmp0 _ al _ t xs ((hdr, []) :: R)); [exact Hh2|exact Ho2|exact Hal|].
    intros hv4 w4 Ho4 Hh4 He4. by eapply HQ.
  Qed.

  (** ** Nodes given to another allocator than their own *)

  Lemma destroy_content_foreign w al hdr a v hv hf al0 :
    heap_is w hv hf -> nx hv hdr = Some a -> a <> hdr -> bd hv a = Some (LNode al (Some v)) -> is_Some (nx hv a) -> al0 <> al ->
    destroy_list_content (Lst al0 hdr) w = Fault FAlloc.
  Proof.
    intros Hh Hn Hne Hb [b Hnx] Hal. unfold destroy_list_content. apply (stops_false FAlloc). simpl.
    sstep. eapply runs_get_next; [done..|]. sstep. unfold heap_fuel. rbind. apply runs_get_heap. apply runs_ret.
    simpl. rewrite decide_False by done. sstep. eapply runs_get_next; [done..|].
    unfold bd in Hb. destruct (hv !! a) as [[x y bo]|] eqn:E; [|done]. simpl in Hb. simplify_eq.
    assert (Hw : w_heap w !! a = Some (LCell x y (LNode al (Some v)))) by (destruct Hh as [-> _]; by apply lookup_union_Some_l).
    sstep. unfold destroy_value. rbind. eapply runs_load; [done|]. simpl. eapply runs_store; [done|].
    apply stops_fault_bind. unfold deallocate_node, bind, get_heap. simpl. rewrite lookup_insert. by rewrite decide_True.
  Qed.
  Lemma destroy_foreign w al hdr xs R hv hf al0 :
    heap_is w hv hf -> lists_own al ((hdr, xs) :: R) hv -> xs <> [] -> al0 <> al ->
    lst_destroy (Lst al0 hdr) w = Fault FAlloc.
  Proof.
    intros Hh Ho Hx Hal. destruct xs as [|[a v] xs]; [done|]. unfold lst_destroy. apply (stops_false FAlloc). apply stops_fault_bind.
    pose proof (own_link_at _ _ [] ((a, v) :: xs) _ _ Ho) as [Hn _]. simpl in Hn.
    pose proof (own_link_at _ _ [(a, v)] xs _ _ Ho) as [Hn2 _]. simpl in Hn2.
    eapply destroy_content_foreign; [done|done|by eapply (own_hdr_ne _ _ []); exact Ho| |by eexists|done].
    destruct (own_bodies _ _ _ Ho) as [_ Hb]. apply Hb. simpl. apply elem_of_cons. by left.
  Qed.

  (** Assignment destroys the old nodes with a default constructed allocator. *)
  Lemma assign_n_foreign n w al hdr xs R hv hf x v :
    heap_is w hv hf -> lists_own al ((hdr, xs) :: R) hv -> w_err w = None -> arg_in ((hdr, xs) :: R) hf x v ->
    xs <> [] -> c_dflt cf <> al -> lst_assign_n cf (Lst al hdr) n x w = Fault FAlloc.
  Proof.
    intros Hh Ho He Hx Hxs Hal. apply (stops_false FAlloc). unfold lst_assign_n. sstep. eapply runs_lst_new; [done..|].
    intros t hv1 _ Ho1 Hh1. sstep. eapply (runs_lst_swap cf _ al t [] hdr xs); [done..|]. intros hv2 Ho2 Hh2.
    sstep. eapply (runs_push_n cf n _ al hdr [] ((t, xs) :: R)); [exact Hh2|eapply own_perm; [|exact Ho2]; apply perm_swap|done|..].
    - eapply arg_in_mono; [|exact Hx]. done.
    - intros m hv3 w3 Hm Ho3 Hh3 He3. apply stops_fault. eapply destroy_foreign; [exact Hh3|eapply own_perm; [|exact Ho3]; apply perm_swap|done..].
    - intros k m hv3 w3 e Hk Hm Ho3 Hh3 He3 Hne. apply stops_fault. eapply destroy_foreign; [exact Hh3|eapply own_perm; [|exact Ho3]; apply perm_swap|done..].
  Qed.
  Lemma assign_args_foreign ys vs w al hdr xs R hv hf :
    heap_is w hv hf -> lists_own al ((hdr, xs) :: R) hv -> w_err w = None -> Forall2 (arg_in ((hdr, xs) :: R) hf) ys vs ->
    xs <> [] -> c_dflt cf <> al -> lst_assign_args cf (Lst al hdr) ys w = Fault FAlloc.
  Proof.
    intros Hh Ho He Hx Hxs Hal. apply (stops_false FAlloc). unfold lst_assign_args. sstep. eapply runs_lst_new; [done..|].
    intros t hv1 _ Ho1 Hh1. sstep. eapply (runs_lst_swap cf _ al t [] hdr xs); [done..|]. intros hv2 Ho2 Hh2.
    sstep. eapply (runs_push_args cf ys vs _ al hdr [] ((t, xs) :: R)); [exact Hh2|eapply own_perm; [|exact Ho2]; apply perm_swap|done|..].
    - eapply Forall2_impl; [exact Hx|]. intros y u. apply arg_in_mono. done.
    - intros m hv3 w3 Hm Ho3 Hh3 He3. apply stops_fault. eapply destroy_foreign; [exact Hh3|eapply own_perm; [|exact Ho3]; apply perm_swap|done..].
    - intros k m hv3 w3 e Hk Hm Ho3 Hh3 He3 Hne. apply stops_fault. eapply destroy_foreign; [exact Hh3|eapply own_perm; [|exact Ho3]; apply perm_swap|done..].
  Qed.
  Lemma assign_nodes_foreign w al hdr xs h2 a m b R hv hf :
    heap_is w hv hf -> lists_own al ((hdr, xs) :: (h2, a ++ m ++ b) :: R) hv -> w_err w = None ->
    xs <> [] -> c_dflt cf <> al ->
    lst_assign_nodes cf (Lst al hdr) (hdx (m ++ b).*1 h2) (hdx b.*1 h2) w = Fault FAlloc.
  Proof.
    intros Hh Ho He Hxs Hal. apply (stops_false FAlloc). unfold lst_assign_nodes. sstep. eapply runs_lst_new; [done..|].
    intros t hv1 _ Ho1 Hh1. sstep. eapply (runs_lst_swap cf _ al t [] hdr xs); [done..|]. intros hv2 Ho2 Hh2.
    assert (Ho2' : lists_own al ((hdr, []) :: (h2, a ++ m ++ b) :: (t, xs) :: R) hv2) by (eapply own_perm; [|exact Ho2]; perm_solve).
    sstep. eapply runs_heap_fuel; [exact Hh2|exact Ho2'|]. intros fuel Hfu. rewrite list_addrs_cons in Hfu. simpl in Hfu.
    rewrite app_length, fmap_length, !app_length in Hfu.
    sstep. eapply (runs_push_nodes cf fuel _ al hdr [] h2 a m b ((t, xs) :: R)); [exact Hh2|exact Ho2'|done|lia|done|..].
    - intros m' hv3 w3 Hm Ho3 Hh3 He3. apply stops_fault.
      eapply (destroy_foreign _ al t xs ((hdr, m') :: (h2, a ++ m ++ b) :: R)); [exact Hh3|eapply own_perm; [|exact Ho3]; perm_solve|done..].
    - intros k m' hv3 w3 e Hk Hm Ho3 Hh3 He3 Hne. apply stops_fault.
      eapply (destroy_foreign _ al t xs ((hdr, m') :: (h2, a ++ m ++ b) :: R)); [exact Hh3|eapply own_perm; [|exact Ho3]; perm_solve|done..].
  Qed.
  Lemma copy_foreign w al hdr xs h2 ys R hv hf al2 :
    heap_is w hv hf -> lists_own al ((hdr, xs) :: (h2, ys) :: R) hv -> w_err w = None ->
    xs <> [] -> c_dflt cf <> al -> lst_copy cf (Lst al hdr) (Lst al2 h2) w = Fault FAlloc.
  Proof.
    intros Hh Ho He Hxs Hal. assert (Ho2 : lists_own al ((h2, ys) :: (hdr, xs) :: R) hv).
    { eapply own_perm; [|done]. apply perm_swap. }
    apply (stops_false FAlloc). unfold lst_copy. sstep. eapply runs_begin; [done|exact Ho2|]. sstep. eapply runs_end; [done|exact Ho2|].
    pose proof (assign_nodes_foreign w al hdr xs h2 [] ys [] R hv hf) as Hr. simpl in Hr. rewrite app_nil_r in Hr.
    apply stops_fault. by apply Hr.
  Qed.

  Lemma link_sub (h h' : H) a b : h ⊆ h' -> link h a b -> link h' a b.
  Proof.
    intros Hs [Hn Hp]. unfold link, nx, pv in *. split.
    - destruct (h !! a) as [c|] eqn:E; [|done]. by rewrite (lookup_weaken _ _ _ _ E Hs).
    - destruct (h !! b) as [c|] eqn:E; [|done]. by rewrite (lookup_weaken _ _ _ _ E Hs).
  Qed.
  Lemma bd_sub (h h' : H) a b : h ⊆ h' -> bd h a = Some b -> bd h' a = Some b.
  Proof.
    intros Hs Hb. unfold bd in *. destruct (h !! a) as [c|] eqn:E; [|done]. by rewrite (lookup_weaken _ _ _ _ E Hs).
  Qed.

  (** Swapping lists with nodes from different allocators. *)
  Lemma runs_swap_foreign w al1 h1 x1 hv1 al2 h2 x2 hv2 hf a1 a2 (Q : _ -> W -> Prop) :
    lists_own al1 [(h1, x1)] hv1 -> lists_own al2 [(h2, x2)] hv2 -> hv1 ##ₘ hv2 -> heap_is w (hv1 ∪ hv2) hf ->
    (forall hv', heap_is (set_heap (hv' ∪ hf) w) hv' hf -> dom hv' = dom (hv1 ∪ hv2) ->
       list_shape al2 hv' h1 x2 -> list_shape al1 hv' h2 x1 -> Q tt (set_heap (hv' ∪ hf) w)) ->
    runs (lst_swap cf (Lst a1 h1) (Lst a2 h2)) w Q.
  Proof.
    intros Ho1 Ho2 Hd Hh HQ. unfold lst_swap. simpl.
    pose proof Ho1 as (Hna1 & Hda1 & _). pose proof Ho2 as (Hna2 & Hda2 & _).
    destruct (own_bodies _ _ _ Ho1) as [Hh1 Hb1]. destruct (own_bodies _ _ _ Ho2) as [Hh2 Hb2].
    assert (Hs1 : hv1 ⊆ hv1 ∪ hv2) by apply map_union_subseteq_l.
    assert (Hs2 : hv2 ⊆ hv1 ∪ hv2) by by apply map_union_subseteq_r.
    assert (Hr : rings (pairs [(h2, x2); (h1, x1)]) (hv1 ∪ hv2)).
    { pose proof (own_rings _ _ _ Ho1) as (Hf1 & Hn1 & He1). pose proof (own_rings _ _ _ Ho2) as (Hf2 & Hn2 & He2).
      change (pairs [(h2, x2); (h1, x1)]) with (pairs ([(h2, x2)] ++ [(h1, x1)])).
      assert (Happ : pairs ([(h2, x2)] ++ [(h1, x1)]) = pairs [(h2, x2)] ++ pairs [(h1, x1)]).
      { unfold pairs. by rewrite map_app, concat_app. }
      rewrite Happ. split_and!.
      - apply Forall_app. split; (eapply Forall_impl; [eassumption|]); intros p; by apply link_sub.
      - rewrite fmap_app. apply NoDup_app. split_and!; [done| |done].
        rewrite !pairs_fst. intros x Hx2 Hx1. apply Hda1 in Hx1 as [c1 ?]. apply Hda2 in Hx2 as [c2 ?].
        by eapply (map_disjoint_spec hv1 hv2).
      - rewrite !fmap_app. by rewrite He1, He2. }
    assert (Hfin : forall ps hv', rings ps hv' -> dom hv' = dom (hv1 ∪ hv2) -> (forall x, bd hv' x = bd (hv1 ∪ hv2) x) ->
      heap_is (set_heap (hv' ∪ hf) w) hv' hf -> pairs [(h1, x2); (h2, x1)] ≡ₚ ps -> Q tt (set_heap (hv' ∪ hf) w)).
    { intros ps hv' (Hf & _) Hdm Hbd Hh' Hp. rewrite <-Hp in Hf. rewrite !pairs_cons in Hf. rewrite !Forall_app in Hf.
      destruct Hf as (Hf1 & Hf2 & _). apply HQ; [done|done|split_and!..].
      - by apply chain_path.
      - rewrite Hbd. eapply bd_sub; [exact Hs1|]. apply Hh1. simpl. apply elem_of_cons. by left.
      - intros x u Hx. rewrite Hbd. eapply bd_sub; [exact Hs2|]. apply Hb2. simpl. by rewrite app_nil_r.
      - by apply chain_path.
      - rewrite Hbd. eapply bd_sub; [exact Hs2|]. apply Hh2. simpl. apply elem_of_cons. by left.
      - intros x u Hx. rewrite Hbd. eapply bd_sub; [exact Hs1|]. apply Hb1. simpl. by rewrite app_nil_r. }
    clear HQ Ho1 Ho2.
    assert (Hsame : heap_is (set_heap ((hv1 ∪ hv2) ∪ hf) w) (hv1 ∪ hv2) hf) by by rewrite (heap_is_self _ _ _ Hh).
    destruct x2 as [|[b2 v2] x2], x1 as [|[b1 v1] x1].
    - eapply runs_swap_none; [exact Hh|exact Hr|rewrite !pairs_cons; simpl; reflexivity|].
      rewrite <-(heap_is_self _ _ _ Hh). eapply Hfin; [exact Hr|done|done|done|]. apply perm_swap.
    - eapply (runs_swap_right cf _ _ _ _ h2 h1 b1 (lastd b1 x1.*1) (opath b1 x1.*1)); [exact Hh|exact Hr| |].
      { rewrite !pairs_cons. rewrite fmap_cons. simpl ((_, _).1). rewrite path_loop. unfold path, pairs; simpl. perm_solve. }
      intros hv' Hr' Hdm Hbd Hh'. eapply Hfin; try done.
      rewrite !pairs_cons. rewrite fmap_cons. simpl ((_, _).1). rewrite path_loop. unfold path, pairs; simpl. perm_solve.
    - eapply (runs_swap_left cf _ _ _ _ h2 h1 b2 (lastd b2 x2.*1) (opath b2 x2.*1)); [exact Hh|exact Hr| |].
      { rewrite !pairs_cons. rewrite fmap_cons. simpl ((_, _).1). rewrite path_loop. unfold path, pairs; simpl. perm_solve. }
      intros hv' Hr' Hdm Hbd Hh'. eapply Hfin; try done.
      rewrite !pairs_cons. rewrite fmap_cons. simpl ((_, _).1). rewrite path_loop. unfold path, pairs; simpl. perm_solve.
    - eapply (runs_swap_both cf _ _ _ _ h2 h1 b2 (lastd b2 x2.*1) b1 (lastd b1 x1.*1) (opath b2 x2.*1 ++ opath b1 x1.*1));
        [exact Hh|exact Hr| |].
      { rewrite !pairs_cons. rewrite !fmap_cons. simpl ((_, _).1). rewrite !path_loop. unfold pairs; simpl. perm_solve. }
      intros hv' Hr' Hdm Hbd Hh'. eapply Hfin; try done.
      rewrite !pairs_cons. rewrite !fmap_cons. simpl ((_, _).1). rewrite !path_loop. unfold pairs; simpl. perm_solve.
  Qed.

  Lemma destroy_shape_foreign w al hdr xs hv hf al0 :
    heap_is w hv hf -> list_shape al hv hdr xs -> xs <> [] -> al0 <> al ->
    lst_destroy (Lst al0 hdr) w = Fault FAlloc.
  Proof.
    intros Hh (Hc & Hb0 & Hb) Hx Hal. destruct xs as [|[a v] xs]; [done|]. unfold lst_destroy. apply (stops_false FAlloc).
    apply stops_fault_bind. simpl in Hc. destruct Hc as [[Hn _] Hc].
    eapply destroy_content_foreign; [done|done| |apply Hb, elem_of_cons; by left| |done].
    - intros ->. rewrite (Hb hdr v) in Hb0 by (apply elem_of_cons; by left). done.
    - destruct xs as [|[b u] xs]; simpl in Hc; [destruct Hc as [? _]|destruct Hc as [[? _] _]]; by eexists.
  Qed.


End exact.
