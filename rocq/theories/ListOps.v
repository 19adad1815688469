(** * Specifications of the list operations *)
From Verif Require Export ListProofs.

Section ops.
  Context {V : Type} (cf : cfg V).
  Notation H := (gmap addr (lcell V)).
  Notation W := (world (lcell V)).
  Notation L := (list (addr * list (addr * V))).
  Implicit Types h hv hf : H.
  Implicit Types w : W.
  Implicit Types ls R : L.

  (** ** Collections of lists as rings *)

  Definition pairs ls : list (addr * addr) := concat (map (fun l => path l.1 l.2.*1 l.1) ls).

  Lemma pairs_cons hdr xs ls : pairs ((hdr, xs) :: ls) = path hdr xs.*1 hdr ++ pairs ls.
  Proof. done. Qed.
  Lemma list_addrs_cons hdr xs ls : list_addrs ((hdr, xs) :: ls) = (hdr :: xs.*1) ++ list_addrs ls.
  Proof. done. Qed.

  Lemma pairs_fst ls : (pairs ls).*1 = list_addrs ls.
  Proof.
    induction ls as [|[hdr xs] ls IH]; [done|]. by rewrite pairs_cons, fmap_app, path_fst, IH.
  Qed.
  Lemma pairs_snd ls : (pairs ls).*2 ≡ₚ list_addrs ls.
  Proof.
    induction ls as [|[hdr xs] ls IH]; [done|].
    rewrite pairs_cons, fmap_app, path_snd, IH, list_addrs_cons. apply Permutation_app_tail. perm_solve.
  Qed.
  Lemma list_addrs_perm ls : list_addrs ls ≡ₚ ls.*1 ++ (concat ls.*2).*1.
  Proof.
    induction ls as [|[hdr xs] ls IH]; [done|]. rewrite list_addrs_cons, IH. simpl.
    rewrite fmap_app. change (list_fmap _ _ fst) with (fmap (M := list) (A := addr * list (addr * V)) fst).
    apply perm_skip. apply Permutation_app_swap_app.
  Qed.

  Lemma own_intro al ls hv :
    NoDup (list_addrs ls) -> (forall a, is_Some (hv !! a) <-> a ∈ list_addrs ls) ->
    Forall (fun p => link hv p.1 p.2) (pairs ls) ->
    (forall a, a ∈ ls.*1 -> bd hv a = Some LHead) ->
    (forall a v, (a, v) ∈ concat ls.*2 -> bd hv a = Some (LNode al (Some v))) ->
    lists_own al ls hv.
  Proof.
    intros Hn Hd Hf Hb1 Hb2. split; [done|]. split; [done|]. intros hdr xs Hin. split_and!.
    - apply chain_path. rewrite Forall_forall in Hf |- *. intros p Hp. apply Hf.
      unfold pairs. apply elem_of_list_In, in_concat. eexists. split; [|by apply elem_of_list_In, Hp].
      apply in_map_iff. exists (hdr, xs). split; [done|by apply elem_of_list_In].
    - apply Hb1. apply elem_of_list_fmap. by exists (hdr, xs).
    - intros a v Ha. apply Hb2. apply elem_of_list_In, in_concat. exists xs. split; [|by apply elem_of_list_In].
      apply elem_of_list_In, elem_of_list_fmap. by exists (hdr, xs).
  Qed.

  Lemma own_bodies al ls hv :
    lists_own al ls hv ->
    (forall a, a ∈ ls.*1 -> bd hv a = Some LHead) /\
    (forall a v, (a, v) ∈ concat ls.*2 -> bd hv a = Some (LNode al (Some v))).
  Proof.
    intros (_ & _ & Hs). split.
    - intros a ([hdr xs] & -> & Hin)%elem_of_list_fmap. by destruct (Hs _ _ Hin) as (_ & ? & _).
    - intros a v Hin%elem_of_list_In%in_concat. destruct Hin as (xs & Hxs & Ha).
      apply elem_of_list_In, elem_of_list_fmap in Hxs as ([hdr xs'] & -> & Hin).
      destruct (Hs _ _ Hin) as (_ & _ & Hb). apply Hb. by apply elem_of_list_In.
  Qed.

  Lemma own_rings al ls hv : lists_own al ls hv -> rings (pairs ls) hv.
  Proof.
    intros (Hn & Hd & Hs). split_and!.
    - apply Forall_forall. intros p Hp. unfold pairs in Hp.
      apply elem_of_list_In, in_concat in Hp as (ps & Hps & Hp).
      apply in_map_iff in Hps as ([hdr xs] & <- & Hin). apply elem_of_list_In in Hin.
      destruct (Hs _ _ Hin) as (Hc & _). apply chain_path in Hc. rewrite Forall_forall in Hc.
      apply Hc. by apply elem_of_list_In.
    - by rewrite pairs_fst.
    - by rewrite pairs_snd, pairs_fst.
  Qed.

  Lemma concat_perm {A} (l l' : list (list A)) : l ≡ₚ l' -> concat l ≡ₚ concat l'.
  Proof.
    induction 1; simpl; [done|by f_equiv|apply Permutation_app_swap_app|by etrans].
  Qed.
  Lemma list_addrs_mono ls ls' : ls ≡ₚ ls' -> list_addrs ls ≡ₚ list_addrs ls'.
  Proof. intros Hp. apply concat_perm. by apply Permutation_map. Qed.

  Lemma own_perm al ls ls' hv : ls ≡ₚ ls' -> lists_own al ls hv -> lists_own al ls' hv.
  Proof.
    intros Hp (Hn & Hd & Hs). pose proof (list_addrs_mono _ _ Hp) as He.
    split; [by rewrite <-He|]. split; [intros a; by rewrite <-He|]. intros hdr xs Hin. apply Hs. by rewrite Hp.
  Qed.

  (** Relinking the same cells into other lists. *)
  Lemma own_relink al ls ls' hv hv' :
    lists_own al ls hv -> Forall (fun p => link hv' p.1 p.2) (pairs ls') ->
    dom hv' = dom hv -> (forall x, bd hv' x = bd hv x) ->
    ls'.*1 ≡ₚ ls.*1 -> concat ls'.*2 ≡ₚ concat ls.*2 ->
    lists_own al ls' hv'.
  Proof.
    intros Ho Hf Hdom Hbd H1 H2. destruct (own_bodies _ _ _ Ho) as [Hb1 Hb2].
    destruct Ho as (Hn & Hd & _).
    assert (He : list_addrs ls' ≡ₚ list_addrs ls) by by rewrite !list_addrs_perm, H1, H2.
    apply own_intro.
    - by rewrite He.
    - intros a. rewrite He, <-Hd. by rewrite <-!elem_of_dom, Hdom.
    - done.
    - intros a Ha. rewrite Hbd. apply Hb1. by rewrite <-H1.
    - intros a v Ha. rewrite Hbd. apply Hb2. by rewrite <-H2.
  Qed.

  Lemma own_in al ls hv a : lists_own al ls hv -> a ∈ list_addrs ls -> a ∈ (pairs ls).*1.
  Proof. intros _. by rewrite pairs_fst. Qed.

  Lemma runs_check_own w al ls hv hf a (Q : _ -> W -> Prop) :
    heap_is w hv hf -> lists_own al ls hv -> a ∈ list_addrs ls -> Q tt w -> runs (check_node cf a) w Q.
  Proof.
    intros Hh Ho Ha HQ. eapply runs_check_ring; [done|by eapply own_rings|by eapply own_in|done].
  Qed.

  (** ** Walking in the first list of a collection *)

  Lemma hdx_in hdr (l r : list (addr * V)) R : hdx r.*1 hdr ∈ list_addrs ((hdr, l ++ r) :: R).
  Proof.
    rewrite list_addrs_cons. destruct r as [|[x v] r]; simpl; rewrite ?fmap_app; set_solver.
  Qed.
  Lemma lastd_in0 hdr (l : list addr) : lastd hdr l ∈ hdr :: l.
  Proof. revert hdr. induction l as [|x l IH]; intros hdr; simpl; [set_solver|]. apply elem_of_cons. right. apply IH. Qed.
  Lemma lastd_in hdr (l r : list (addr * V)) R : lastd hdr l.*1 ∈ list_addrs ((hdr, l ++ r) :: R).
  Proof.
    rewrite list_addrs_cons. rewrite fmap_app. pose proof (lastd_in0 hdr l.*1). set_solver.
  Qed.

  Lemma own_link_at al hdr l r R hv :
    lists_own al ((hdr, l ++ r) :: R) hv -> link hv (lastd hdr l.*1) (hdx r.*1 hdr).
  Proof.
    intros Ho. destruct (own_rings _ _ _ Ho) as (Hf & _). rewrite pairs_cons, fmap_app, path_split in Hf.
    rewrite Forall_app in Hf. destruct Hf as [Hf _]. rewrite Forall_app in Hf. destruct Hf as [_ Hf].
    rewrite Forall_cons in Hf. apply Hf.
  Qed.

  Lemma runs_begin w al hdr xs R hv hf al0 (Q : _ -> W -> Prop) :
    heap_is w hv hf -> lists_own al ((hdr, xs) :: R) hv -> Q (hdx xs.*1 hdr) w ->
    runs (lst_begin cf (Lst al0 hdr)) w Q.
  Proof.
    intros Hh Ho HQ. destruct (own_link_at _ _ [] xs _ _ Ho) as [Hn _]. simpl in Hn.
    unfold lst_begin. rbind. eapply runs_get_next; [done..|].
    unfold mk_iter. rbind. eapply runs_check_own; [done..|apply (hdx_in hdr [] xs)|]. by apply runs_ret.
  Qed.
  Lemma runs_mk_iter w al ls hv hf a (Q : _ -> W -> Prop) :
    heap_is w hv hf -> lists_own al ls hv -> a ∈ list_addrs ls -> Q a w -> runs (mk_iter cf a) w Q.
  Proof.
    intros Hh Ho Ha HQ. unfold mk_iter. rbind. eapply runs_check_own; [done..|]. by apply runs_ret.
  Qed.
  Lemma runs_it_node w al ls hv hf a (Q : _ -> W -> Prop) :
    heap_is w hv hf -> lists_own al ls hv -> a ∈ list_addrs ls -> Q a w -> runs (it_node cf a) w Q.
  Proof.
    intros Hh Ho Ha HQ. unfold it_node. rbind. eapply runs_check_own; [done..|]. by apply runs_ret.
  Qed.
  Lemma runs_it_eq w al ls hv hf a b (Q : _ -> W -> Prop) :
    heap_is w hv hf -> lists_own al ls hv -> a ∈ list_addrs ls -> b ∈ list_addrs ls ->
    Q (bool_decide (a = b)) w -> runs (it_eq cf a b) w Q.
  Proof.
    intros Hh Ho Ha Hb HQ. unfold it_eq. rbind. eapply runs_check_own; [done..|].
    rbind. eapply runs_check_own; [done..|]. by apply runs_ret.
  Qed.
  Lemma hdr_in hdr xs R : hdr ∈ list_addrs ((hdr, xs) :: R).
  Proof. rewrite list_addrs_cons. set_solver. Qed.
  Lemma node_in hdr l a (v : V) r R : a ∈ list_addrs ((hdr, l ++ (a, v) :: r) :: R).
  Proof. apply (hdx_in hdr l ((a, v) :: r)). Qed.

  Lemma runs_end w al hdr xs R hv hf al0 (Q : _ -> W -> Prop) :
    heap_is w hv hf -> lists_own al ((hdr, xs) :: R) hv -> Q hdr w ->
    runs (lst_end cf (Lst al0 hdr)) w Q.
  Proof.
    intros Hh Ho HQ. unfold lst_end. simpl. eapply runs_mk_iter; [done..|apply hdr_in|done].
  Qed.

  Lemma runs_it_inc w al hdr l a v r R hv hf (Q : _ -> W -> Prop) :
    heap_is w hv hf -> lists_own al ((hdr, l ++ (a, v) :: r) :: R) hv -> Q (hdx r.*1 hdr) w ->
    runs (it_inc cf a) w Q.
  Proof.
    intros Hh Ho HQ. pose proof Ho as Ho'. replace (l ++ (a, v) :: r) with ((l ++ [(a, v)]) ++ r) in Ho'
      by (by rewrite <-(assoc_L (++))).
    pose proof (own_link_at _ _ _ _ _ _ Ho') as [Hn _]. rewrite fmap_app in Hn. simpl in Hn. rewrite lastd_snoc in Hn.
    unfold it_inc. rbind. eapply runs_check_own; [done|exact Ho|apply node_in|].
    rbind. eapply runs_get_next; [done..|]. rbind. eapply runs_check_own; [done|exact Ho'|apply hdx_in|]. by apply runs_ret.
  Qed.
  Lemma runs_it_dec w al hdr l r R hv hf (Q : _ -> W -> Prop) :
    heap_is w hv hf -> lists_own al ((hdr, l ++ r) :: R) hv -> Q (lastd hdr l.*1) w ->
    runs (it_dec cf (hdx r.*1 hdr)) w Q.
  Proof.
    intros Hh Ho HQ. pose proof (own_link_at _ _ _ _ _ _ Ho) as [_ Hp].
    unfold it_dec. rbind. eapply runs_check_own; [done..|apply hdx_in|].
    rbind. eapply runs_get_prev; [done..|]. rbind. eapply runs_check_own; [done..|apply lastd_in|]. by apply runs_ret.
  Qed.

  Lemma runs_lread w h hf a al v (Q : _ -> W -> Prop) :
    heap_is w h hf -> bd h a = Some (LNode al (Some v)) -> Q v w -> runs (lread a) w Q.
  Proof.
    intros [Hw _] Hb HQ. unfold lread. unfold bd in Hb. destruct (h !! a) as [c|] eqn:E; [|done]. simpl in Hb.
    rbind. eapply runs_load; [rewrite Hw; by apply lookup_union_Some_l|].
    simplify_eq. rewrite Hb. by apply runs_ret.
  Qed.
  Lemma runs_lread_heap w a al v (Q : _ -> W -> Prop) :
    bd (w_heap w) a = Some (LNode al (Some v)) -> Q v w -> runs (lread a) w Q.
  Proof.
    intros Hb HQ. unfold lread. unfold bd in Hb. destruct (w_heap w !! a) as [c|] eqn:E; [|done]. simpl in Hb.
    rbind. eapply runs_load; [done|]. simplify_eq. rewrite Hb. by apply runs_ret.
  Qed.
  Lemma own_body al hdr l a v r R hv :
    lists_own al ((hdr, l ++ (a, v) :: r) :: R) hv -> bd hv a = Some (LNode al (Some v)).
  Proof.
    intros (_ & _ & Hs). destruct (Hs hdr (l ++ (a, v) :: r)) as (_ & _ & Hb); [set_solver|]. apply Hb. set_solver.
  Qed.
  Lemma own_hbody al hdr xs R hv :
    lists_own al ((hdr, xs) :: R) hv -> bd hv hdr = Some LHead.
  Proof.
    intros (_ & _ & Hs). destruct (Hs hdr xs) as (_ & Hb & _); [set_solver|]. done.
  Qed.
  Lemma runs_deref w al hdr l a v r R hv hf (Q : _ -> W -> Prop) :
    heap_is w hv hf -> lists_own al ((hdr, l ++ (a, v) :: r) :: R) hv -> Q v w ->
    runs (it_deref cf a) w Q.
  Proof.
    intros Hh Ho HQ. unfold it_deref. rbind. eapply runs_check_own; [done..|apply node_in|].
    eapply runs_lread; [done|by eapply own_body|done].
  Qed.

  Lemma own_hdr_ne al hdr l a (v : V) r R hv : lists_own al ((hdr, l ++ (a, v) :: r) :: R) hv -> a <> hdr.
  Proof.
    intros (Hn & _) ->. rewrite list_addrs_cons in Hn. simpl in Hn. apply NoDup_cons in Hn as [Hn _].
    apply Hn. rewrite fmap_app. set_solver.
  Qed.

  Lemma runs_lst_empty w al hdr xs R hv hf al0 (Q : _ -> W -> Prop) :
    heap_is w hv hf -> lists_own al ((hdr, xs) :: R) hv -> Q (bool_decide (xs = [])) w ->
    runs (lst_empty (Lst al0 hdr)) w Q.
  Proof.
    intros Hh Ho HQ. destruct (own_link_at _ _ [] xs _ _ Ho) as [Hn _]. simpl in Hn.
    unfold lst_empty. rbind. eapply runs_get_next; [done..|]. apply runs_ret. simpl.
    destruct xs as [|[a v] xs]; simpl in *.
    - by rewrite bool_decide_true in * by done.
    - rewrite bool_decide_false; [done|]. by eapply (own_hdr_ne al hdr []).
  Qed.

  (** Fuel: a collection of lists has as many cells as addresses. *)
  Lemma own_size al ls hv : lists_own al ls hv -> size hv = length (list_addrs ls).
  Proof.
    intros (Hn & Hd & _). rewrite <-size_dom. rewrite <-(size_list_to_set (C := gset addr)) by done.
    f_equal. apply set_eq. intros a. rewrite elem_of_dom, Hd, elem_of_list_to_set. done.
  Qed.
  Lemma heap_is_size w hv hf : heap_is w hv hf -> size hv <= size (w_heap w).
  Proof.
    intros [Hw Hd]. rewrite Hw. rewrite map_size_disj_union by done. lia.
  Qed.
  Lemma runs_heap_fuel w hv hf al hdr xs R (Q : _ -> W -> Prop) :
    heap_is w hv hf -> lists_own al ((hdr, xs) :: R) hv ->
    (forall fuel, length xs + length (list_addrs R) + 1 < fuel -> Q fuel w) -> runs heap_fuel w Q.
  Proof.
    intros Hh Ho HQ. unfold heap_fuel. rbind. apply runs_get_heap. apply runs_ret. apply HQ.
    pose proof (heap_is_size _ _ _ Hh). rewrite (own_size _ _ _ Ho) in *.
    rewrite list_addrs_cons in *. simpl in *. rewrite app_length, fmap_length in *. lia.
  Qed.

  Lemma runs_distance_loop fuel w al hdr l r R hv hf n (Q : _ -> W -> Prop) :
    heap_is w hv hf -> lists_own al ((hdr, l ++ r) :: R) hv -> length r < fuel ->
    Q (n + length r) w -> runs (distance_loop cf fuel (hdx r.*1 hdr) hdr n) w Q.
  Proof.
    intros Hh. revert l r n. induction fuel as [|fuel IH]; intros l r n Ho Hf HQ; [lia|].
    simpl. rbind. eapply runs_it_eq; [done..|apply hdx_in|apply hdr_in|].
    destruct r as [|[a v] r]; simpl.
    - rewrite bool_decide_true by done. apply runs_ret. simpl in HQ. by rewrite Nat.add_0_r in HQ.
    - rewrite bool_decide_false by (by eapply own_hdr_ne). rbind. eapply runs_it_inc; [done..|].
      eapply (IH (l ++ [(a, v)])); [by rewrite <-(assoc_L (++))|simpl in *; lia|].
      simpl in HQ. rewrite Nat.add_succ_r in HQ. exact HQ.
  Qed.
  Lemma runs_lst_size w al hdr xs R hv hf al0 (Q : _ -> W -> Prop) :
    heap_is w hv hf -> lists_own al ((hdr, xs) :: R) hv -> Q (length xs) w ->
    runs (lst_size cf (Lst al0 hdr)) w Q.
  Proof.
    intros Hh Ho HQ. unfold lst_size. rbind. eapply runs_begin; [done..|]. rbind. eapply runs_end; [done..|].
    rbind. eapply runs_heap_fuel; [done..|]. intros fuel Hfu.
    eapply (runs_distance_loop fuel w al hdr [] xs); [done..|lia|done].
  Qed.

  Lemma runs_walk_loop fuel w al hdr l r R hv hf (Q : _ -> W -> Prop) :
    heap_is w hv hf -> lists_own al ((hdr, l ++ r) :: R) hv -> length r < fuel ->
    Q r.*2 w -> runs (walk_loop cf fuel (hdx r.*1 hdr) hdr) w Q.
  Proof.
    intros Hh. revert l r Q. induction fuel as [|fuel IH]; intros l r Q Ho Hf HQ; [lia|].
    simpl. rbind. eapply runs_it_eq; [done..|apply hdx_in|apply hdr_in|].
    destruct r as [|[a v] r]; simpl.
    - rewrite bool_decide_true by done. by apply runs_ret.
    - rewrite bool_decide_false by (by eapply own_hdr_ne). rbind. eapply runs_deref; [done..|].
      rbind. eapply runs_it_inc; [done..|].
      rbind. eapply (IH (l ++ [(a, v)])); [by rewrite <-(assoc_L (++))|simpl in *; lia|]. by apply runs_ret.
  Qed.
  Lemma runs_lst_walk w al hdr xs R hv hf al0 (Q : _ -> W -> Prop) :
    heap_is w hv hf -> lists_own al ((hdr, xs) :: R) hv -> Q xs.*2 w ->
    runs (lst_walk cf (Lst al0 hdr)) w Q.
  Proof.
    intros Hh Ho HQ. unfold lst_walk. rbind. eapply runs_begin; [done..|]. rbind. eapply runs_end; [done..|].
    rbind. eapply runs_heap_fuel; [done..|]. intros fuel Hfu.
    eapply (runs_walk_loop fuel w al hdr [] xs); [done..|lia|done].
  Qed.

  Lemma runs_rwalk_loop fuel w al hdr l r R hv hf (Q : _ -> W -> Prop) :
    heap_is w hv hf -> lists_own al ((hdr, l ++ r) :: R) hv -> length l < fuel ->
    Q (reverse l.*2) w -> runs (rwalk_loop cf fuel (hdx r.*1 hdr) (hdx (l ++ r).*1 hdr)) w Q.
  Proof.
    intros Hh. revert l r Q. induction fuel as [|fuel IH]; intros l r Q Ho Hf HQ; [lia|].
    simpl. rbind. eapply runs_it_eq; [done..|apply hdx_in|apply (hdx_in hdr [])|].
    destruct l as [|[a v] l _] using rev_ind; simpl.
    - rewrite bool_decide_true by done. by apply runs_ret.
    - rewrite bool_decide_false.
      2: { rewrite <-(assoc_L (++)) in *. simpl in *. intros Heq. destruct Ho as (Hn & _).
           rewrite list_addrs_cons in Hn. apply NoDup_app in Hn as (Hn & _).
           destruct l as [|[b u] l]; simpl in *.
           - destruct r as [|[c u] r]; simpl in *; subst.
             + apply NoDup_cons in Hn as [Hn _]. set_solver.
             + apply NoDup_cons in Hn as [_ Hn]. apply NoDup_cons in Hn as [Hn _]. set_solver.
           - destruct r as [|[c x] r]; simpl in *; subst.
             + apply NoDup_cons in Hn as [Hn _]. set_solver.
             + apply NoDup_cons in Hn as [_ Hn]. apply NoDup_cons in Hn as [Hn _]. apply Hn.
               change (list_fmap _ _ fst (l ++ (a, v) :: (b, x) :: r)) with ((l ++ (a, v) :: (b, x) :: r).*1).
               rewrite fmap_app. set_solver. }
      assert (Hl : lastd hdr (l ++ [(a, v)]).*1 = a) by (rewrite fmap_app; apply lastd_snoc).
      rbind. eapply runs_it_dec; [done..|]. rewrite Hl.
      rbind. eapply runs_deref; [done|by rewrite <-(assoc_L (++)) in Ho|].
      rbind. eapply runs_it_dec; [done..|]. rewrite Hl.
      rewrite app_length in Hf. simpl in Hf.
      rbind. rewrite <-(assoc_L (++)) in *. simpl in *.
      eapply (IH l ((a, v) :: r)); [done|lia|]. apply runs_ret. by rewrite fmap_app, reverse_app in HQ.
  Qed.
  Lemma runs_lst_rwalk w al hdr xs R hv hf al0 (Q : _ -> W -> Prop) :
    heap_is w hv hf -> lists_own al ((hdr, xs) :: R) hv -> Q (reverse xs.*2) w ->
    runs (lst_rwalk cf (Lst al0 hdr)) w Q.
  Proof.
    intros Hh Ho HQ. unfold lst_rwalk. rbind. eapply runs_end; [done..|]. rbind. eapply runs_begin; [done..|].
    rbind. eapply runs_heap_fuel; [done..|]. intros fuel Hfu. rewrite <-(app_nil_r xs) in Ho.
    pose proof (runs_rwalk_loop fuel w al hdr xs [] R hv hf Q) as Hr. rewrite app_nil_r in Hr. simpl in Hr.
    apply Hr; try done; [by rewrite app_nil_r in Ho|lia].
  Qed.

  Lemma runs_lst_front w al hdr a v xs R hv hf al0 (Q : _ -> W -> Prop) :
    heap_is w hv hf -> lists_own al ((hdr, (a, v) :: xs) :: R) hv -> Q v w ->
    runs (lst_front cf (Lst al0 hdr)) w Q.
  Proof.
    intros Hh Ho HQ. unfold lst_front. rbind. eapply runs_lst_empty; [done..|].
    rbind. apply runs_assert; [done|]. rbind. eapply runs_begin; [done..|].
    by eapply (runs_deref w al hdr []).
  Qed.
  Lemma runs_lst_back w al hdr a v xs R hv hf al0 (Q : _ -> W -> Prop) :
    heap_is w hv hf -> lists_own al ((hdr, xs ++ [(a, v)]) :: R) hv -> Q v w ->
    runs (lst_back cf (Lst al0 hdr)) w Q.
  Proof.
    intros Hh Ho HQ. unfold lst_back. rbind. eapply runs_lst_empty; [done..|].
    rbind. apply runs_assert; [by destruct xs|]. rbind. eapply runs_end; [done..|].
    rbind. eapply (runs_it_dec w al hdr (xs ++ [(a, v)]) []); [done|by rewrite app_nil_r|].
    rewrite fmap_app. simpl. rewrite lastd_snoc. by eapply (runs_deref w al hdr xs).
  Qed.
End ops.
