(** * Specifications of the list modifiers *)
From Verif Require Export ListOps.

Section mut.
  Context {V : Type} (cf : cfg V).
  Notation H := (gmap addr (lcell V)).
  Notation W := (world (lcell V)).
  Notation L := (list (addr * list (addr * V))).
  Implicit Types h hv hf : H.
  Implicit Types w : W.
  Implicit Types ls R : L.

  (** ** Fragments *)

  Lemma Forall_perm {A} (P : A -> Prop) l k : l ≡ₚ k -> Forall P k -> Forall P l.
  Proof. by intros ->. Qed.

  Lemma heap_is_insert w hv hf a c :
    heap_is w hv hf -> w_heap w !! a = None ->
    <[a := c]> (w_heap w) = <[a := c]> hv ∪ hf /\ <[a := c]> hv ##ₘ hf.
  Proof.
    intros [Hw Hd] Ha. rewrite Hw in *. apply lookup_union_None in Ha as [Ha1 Ha2]. split.
    - by rewrite insert_union_l.
    - by apply map_disjoint_insert_l_2.
  Qed.
  Lemma heap_is_delete w hv hf a : heap_is w hv hf -> heap_is (set_heap (delete a hv ∪ hf) w) (delete a hv) hf.
  Proof. intros [_ Hd]. split; [done|]. by apply map_disjoint_delete_l. Qed.
  Lemma delete_frag hv hf a : hv ##ₘ hf -> is_Some (hv !! a) -> delete a (hv ∪ hf) = delete a hv ∪ hf.
  Proof.
    intros Hd [c Hc]. rewrite delete_union. f_equal. apply delete_notin.
    by eapply map_disjoint_Some_r in Hc.
  Qed.

  Lemma bd_insert h a c x : bd (<[a := c]> h) x = if decide (x = a) then Some (ln_body c) else bd h x.
  Proof. unfold bd. case_decide; subst; [by rewrite lookup_insert|by rewrite lookup_insert_ne]. Qed.
  Lemma nx_insert h a c x : nx (<[a := c]> h) x = if decide (x = a) then ln_next c else nx h x.
  Proof. unfold nx. case_decide; subst; [by rewrite lookup_insert|by rewrite lookup_insert_ne]. Qed.
  Lemma pv_insert h a c x : pv (<[a := c]> h) x = if decide (x = a) then ln_prev c else pv h x.
  Proof. unfold pv. case_decide; subst; [by rewrite lookup_insert|by rewrite lookup_insert_ne]. Qed.

  Lemma own_not_in al ls hv a : lists_own al ls hv -> hv !! a = None -> a ∉ list_addrs ls.
  Proof. intros (_ & Hd & _) Ha Hin%Hd. rewrite Ha in Hin. by destruct Hin. Qed.

  Lemma links_agree (ps : list (addr * addr)) h h' :
    Forall (fun p => link h p.1 p.2) ps -> (forall x, x ∈ ps.*1 \/ x ∈ ps.*2 -> h' !! x = h !! x) ->
    Forall (fun p => link h' p.1 p.2) ps.
  Proof.
    intros Hf Ha. rewrite Forall_forall in Hf |- *. intros p Hp. destruct (Hf p Hp) as [Hn Hpv].
    unfold link, nx, pv in *. rewrite !Ha; [done|right|left]; apply elem_of_list_fmap; by exists p.
  Qed.

  (** An empty list is added. *)
  Lemma own_new al ls hv a :
    lists_own al ls hv -> hv !! a = None ->
    lists_own al ((a, []) :: ls) (<[a := LCell (Some a) (Some a) LHead]> hv).
  Proof.
    intros Ho Ha. pose proof (own_not_in _ _ _ _ Ho Ha) as Hna. pose proof (own_rings _ _ _ Ho) as (Hf & _).
    destruct (own_bodies _ _ _ Ho) as [Hb1 Hb2]. destruct Ho as (Hn & Hd & _). apply own_intro.
    - rewrite list_addrs_cons. simpl. by apply NoDup_cons.
    - intros x. rewrite list_addrs_cons. simpl. rewrite elem_of_cons, <-Hd, lookup_insert_is_Some. naive_solver.
    - rewrite pairs_cons. simpl. apply Forall_cons_2.
      + unfold link; simpl. rewrite nx_insert, pv_insert. by rewrite !decide_True by done.
      + eapply links_agree; [done|]. intros x Hx. apply lookup_insert_ne. intros ->. apply Hna.
        rewrite pairs_fst, pairs_snd in Hx. tauto.
    - intros x. simpl. rewrite elem_of_cons, bd_insert. intros [->|Hx]; [by rewrite decide_True|].
      rewrite decide_False; [by apply Hb1|]. intros ->. apply Hna. rewrite list_addrs_perm. apply elem_of_app. by left.
    - intros x v. simpl. intros Hx. rewrite bd_insert. rewrite decide_False; [by apply Hb2|].
      intros ->. apply Hna. rewrite list_addrs_perm. apply elem_of_app. right.
      apply elem_of_list_fmap. by exists (a, v).
  Qed.

  (** Lists are dropped. *)
  Lemma own_restrict al ls R hv hv' :
    lists_own al (ls ++ R) hv -> (forall x, x ∈ list_addrs R -> hv' !! x = hv !! x) ->
    (forall x, is_Some (hv' !! x) -> x ∈ list_addrs R) ->
    lists_own al R hv'.
  Proof.
    intros Ho Hag Hdm. pose proof (own_rings _ _ _ Ho) as (Hf & _). destruct (own_bodies _ _ _ Ho) as [Hb1 Hb2].
    destruct Ho as (Hn & Hd & _).
    assert (Happ : list_addrs (ls ++ R) = list_addrs ls ++ list_addrs R).
    { unfold list_addrs. by rewrite map_app, concat_app. }
    assert (Hpapp : pairs (ls ++ R) = pairs ls ++ pairs R).
    { unfold pairs. by rewrite map_app, concat_app. }
    rewrite Happ in Hn. rewrite Hpapp in Hf. apply Forall_app in Hf as [_ Hf].
    apply NoDup_app in Hn as (_ & _ & Hn).
    apply own_intro.
    - done.
    - intros x. split; [apply Hdm|]. intros Hx. rewrite Hag by done. apply Hd. rewrite Happ. apply elem_of_app. by right.
    - eapply links_agree; [done|]. intros x Hx. apply Hag. rewrite pairs_fst, pairs_snd in Hx. tauto.
    - intros x Hx. unfold bd. rewrite Hag; [apply Hb1; rewrite fmap_app; apply elem_of_app; by right|].
      rewrite list_addrs_perm. apply elem_of_app. by left.
    - intros x v Hx. unfold bd. rewrite Hag; [apply Hb2; rewrite fmap_app, concat_app; apply elem_of_app; by right|].
      rewrite list_addrs_perm. apply elem_of_app. right. apply elem_of_list_fmap. by exists (x, v).
  Qed.

  Lemma nodup_hdr hdr (xs : list (addr * V)) R : NoDup (list_addrs ((hdr, xs) :: R)) -> hdr ∉ xs.*1 /\ NoDup xs.*1 /\ hdr ∉ list_addrs R /\
    (forall x, x ∈ xs.*1 -> x ∉ list_addrs R) /\ NoDup (list_addrs R).
  Proof.
    rewrite list_addrs_cons. intros (Hn & Hd & Hn2)%NoDup_app. apply NoDup_cons in Hn as [Hn1 Hn].
    split_and!; try done; [apply Hd; set_solver|]. intros x Hx. apply Hd. set_solver.
  Qed.

  (** ** Allocation of nodes *)

  Lemma runs_lplace w h a x y al u v (Q : _ -> W -> Prop) :
    w_heap w = <[a := LCell x y (LNode al u)]> h -> u = None ->
    Q tt (set_heap (<[a := LCell x y (LNode al (Some v))]> h) w) -> runs (lplace a v) w Q.
  Proof.
    intros Hw -> HQ. unfold lplace. rbind. eapply runs_load; [rewrite Hw; apply lookup_insert|]. simpl.
    eapply runs_store; [rewrite Hw; apply lookup_insert|]. by rewrite Hw, insert_insert.
  Qed.
  Lemma runs_loverwrite w h a x y al u v (Q : _ -> W -> Prop) :
    w_heap w = <[a := LCell x y (LNode al (Some u))]> h ->
    Q tt (set_heap (<[a := LCell x y (LNode al (Some v))]> h) w) -> runs (loverwrite a v) w Q.
  Proof.
    intros Hw HQ. unfold loverwrite. rbind. eapply runs_load; [rewrite Hw; apply lookup_insert|]. simpl.
    eapply runs_store; [rewrite Hw; apply lookup_insert|]. by rewrite Hw, insert_insert.
  Qed.
  Lemma runs_destroy_value w h a x y al u (Q : _ -> W -> Prop) :
    w_heap w = <[a := LCell x y (LNode al (Some u))]> h ->
    Q tt (set_heap (<[a := LCell x y (LNode al None)]> h) w) -> runs (destroy_value a) w Q.
  Proof.
    intros Hw HQ. unfold destroy_value. rbind. eapply runs_load; [rewrite Hw; apply lookup_insert|]. simpl.
    eapply runs_store; [rewrite Hw; apply lookup_insert|]. by rewrite Hw, insert_insert.
  Qed.
  Lemma runs_deallocate_node w h a x y al (Q : _ -> W -> Prop) :
    w_heap w = <[a := LCell x y (LNode al None)]> h ->
    Q tt (set_heap (delete a h) w) -> runs (deallocate_node al a) w Q.
  Proof.
    intros Hw HQ. unfold deallocate_node. rbind. apply runs_get_heap. rewrite Hw, lookup_insert.
    rewrite decide_False by naive_solver.
    eapply runs_free_cell; [rewrite Hw; apply lookup_insert|]. by rewrite Hw, delete_insert_delete.
  Qed.
  Lemma runs_read_larg w x v (Q : _ -> W -> Prop) : larg_is (w_heap w) x v -> Q v w -> runs (read_larg x) w Q.
  Proof.
    destruct x as [y|a]; simpl.
    - intros -> HQ. by apply runs_ret.
    - intros [al Ha] HQ. by eapply runs_lread_heap.
  Qed.
  Lemma larg_is_insert h a c x v : larg_is h x v -> h !! a = None -> larg_is (<[a := c]> h) x v.
  Proof.
    destruct x as [y|b]; simpl; [done|]. intros [al Hb] Ha. exists al. rewrite bd_insert, decide_False; [done|].
    intros ->. unfold bd in Hb. by rewrite Ha in Hb.
  Qed.

  Lemma runs_create_node w o x v (Q : _ -> W -> Prop) :
    w_err w = None -> larg_is (w_heap w) x v ->
    (forall a orc, w_heap w !! a = None ->
       Q (Some a) (World (<[a := LCell None None (LNode (l_alloc o) (Some v))]> (w_heap w)) orc None (S (w_allocs w)) (S (w_ctors w)))) ->
    (forall orc e nc, node_error cf e -> nc <= S (w_ctors w) -> Q None (World (w_heap w) orc (Some e) (S (w_allocs w)) nc)) ->
    runs (create_node cf o x) w Q.
  Proof.
    intros He Hx Hok Hfail. unfold create_node. rbind. apply runs_alloc_cell.
    2: { intros orc. rbind. apply runs_has_err. simpl. apply runs_ret. apply Hfail; [by left|lia]. }
    intros a orc Ha. rbind. apply runs_has_err. simpl. rewrite He.
    rbind. eapply (runs_construct cf _ _ _ _ v _ (fun u => <[a := LCell None None (LNode (l_alloc o) (Some u))]> (w_heap w))).
    - done.
    - simpl. reflexivity.
    - intros u w1 P Hw1 HP. eapply runs_lplace; [exact Hw1|done|done].
    - intros u u' w1 P Hw1 HP. eapply runs_loverwrite; [exact Hw1|done].
    - intros u w1 P Hw1 HP. eapply runs_destroy_value; [exact Hw1|done].
    - intros w1 P Hw1 HP. eapply runs_read_larg; [|exact HP]. destruct Hw1 as [->|[u ->]]; by apply larg_is_insert.
    - intros orc'. simpl. rbind. apply runs_has_err. simpl. apply runs_ret. by apply Hok.
    - intros orc' code Hk. simpl. rbind. apply runs_has_err. simpl. rbind.
      eapply runs_deallocate_node; [simpl; reflexivity|]. apply runs_ret. unfold set_heap; simpl.
      rewrite delete_notin by done. apply Hfail; [right; eauto|lia].
  Qed.

  (** ** Insertion *)

  Lemma own_after_insert al hdr l r R hv hv' a v :
    lists_own al ((hdr, l ++ r) :: R) hv -> hv !! a = None ->
    Forall (fun p => link hv' p.1 p.2) (pairs ((hdr, l ++ (a, v) :: r) :: R)) ->
    (forall x, is_Some (hv' !! x) <-> x = a \/ is_Some (hv !! x)) ->
    (forall x, bd hv' x = if decide (x = a) then Some (LNode al (Some v)) else bd hv x) ->
    lists_own al ((hdr, l ++ (a, v) :: r) :: R) hv'.
  Proof.
    intros Ho Ha Hf Hdm Hbd. pose proof (own_not_in _ _ _ _ Ho Ha) as Hna. destruct (own_bodies _ _ _ Ho) as [Hb1 Hb2].
    destruct Ho as (Hn & Hd & _).
    assert (Hp : list_addrs ((hdr, l ++ (a, v) :: r) :: R) ≡ₚ a :: list_addrs ((hdr, l ++ r) :: R)).
    { rewrite !list_addrs_cons, !fmap_app, fmap_cons. simpl. perm_solve. }
    apply own_intro.
    - rewrite Hp. by apply NoDup_cons.
    - intros x. rewrite Hdm, Hp, elem_of_cons, Hd. done.
    - done.
    - intros x Hx. rewrite Hbd, decide_False; [by apply Hb1|]. intros ->. apply Hna.
      rewrite list_addrs_perm. apply elem_of_app. by left.
    - intros x u. simpl. rewrite !elem_of_app, elem_of_cons. rewrite Hbd.
      intros Hx. destruct (decide (x = a)) as [->|Hne].
      + destruct Hx as [[Hx|[Hx|Hx]]|Hx]; [..|by simplify_eq|exfalso|exfalso]; try (exfalso); apply Hna;
          rewrite list_addrs_perm; apply elem_of_app; right; apply elem_of_list_fmap; exists (a, u);
          (split; [done|]); simpl; rewrite !elem_of_app; tauto.
      + apply Hb2. simpl. rewrite !elem_of_app. destruct Hx as [[Hx|[Hx|Hx]]|Hx]; [tauto| |tauto..]. by simplify_eq.
  Qed.

  (** What insertion does to the list and to the world. *)
  Lemma runs_emplace w al hdr l r R hv hf x v (Q : _ -> W -> Prop) :
    heap_is w hv hf -> lists_own al ((hdr, l ++ r) :: R) hv -> w_err w = None -> larg_is (w_heap w) x v ->
    (forall a hv' w', w_heap w !! a = None -> lists_own al ((hdr, l ++ (a, v) :: r) :: R) hv' -> heap_is w' hv' hf ->
       w_err w' = None -> w_allocs w' = S (w_allocs w) -> w_ctors w' = S (w_ctors w) -> Q a w') ->
    (forall w' e, w_heap w' = w_heap w -> w_err w' = Some e -> node_error cf e -> w_allocs w' = S (w_allocs w) -> Q hdr w') ->
    runs (lst_emplace cf (Lst al hdr) (hdx r.*1 hdr) x) w Q.
  Proof.
    intros Hh Ho He Hx Hok Hfail. unfold lst_emplace. rbind. eapply runs_create_node; [done..| |].
    2: { intros orc e nc Hne Hnc. rbind. apply runs_has_err. simpl.
         eapply runs_end; [|exact Ho|]; [split; [apply Hh|apply Hh]|]. by eapply Hfail. }
    intros a orc Ha. rbind. apply runs_has_err. simpl.
    destruct (heap_is_insert w hv hf a (LCell None None (LNode al (Some v))) Hh Ha) as [Hw1 Hd1].
    rewrite Hw1. set (hv1 := <[a := _]> hv) in *. set (w1 := World _ _ _ _ _).
    assert (Hh1 : heap_is w1 hv1 hf) by (split; done).
    assert (Hva : hv !! a = None) by (destruct Hh as [Hw _]; rewrite Hw in Ha; by apply lookup_union_None in Ha as [? _]).
    pose proof (own_not_in _ _ _ _ Ho Hva) as Hna.
    rbind. unfold init_empty. rbind. eapply runs_set_next; [done|apply lookup_insert_is_Some; by left|].
    set (hv2 := sn a a hv1). assert (Hh2 : heap_is (set_heap (hv2 ∪ hf) w1) hv2 hf) by (eapply heap_is_upd; [done|apply dom_sn]).
    rbind. eapply runs_set_prev; [done|apply some_sn, lookup_insert_is_Some; by left|].
    set (hv3 := sp a a hv2). assert (Hh3 : heap_is (set_heap (hv3 ∪ hf) w1) hv3 hf).
    { eapply (heap_is_upd (set_heap (hv2 ∪ hf) w1)); [done|apply dom_sp]. }
    change (set_heap _ (set_heap (hv2 ∪ hf) w1)) with (set_heap (hv3 ∪ hf) w1).
    assert (Hnx3 : forall y, nx hv3 y = if decide (y = a) then Some a else nx hv y).
    { intros y. unfold hv3, hv2, hv1. rewrite nx_sp, nx_sn by (apply lookup_insert_is_Some; by left).
      rewrite nx_insert. by case_decide. }
    assert (Hpv3 : forall y, pv hv3 y = if decide (y = a) then Some a else pv hv y).
    { intros y. unfold hv3, hv2, hv1. rewrite pv_sp by (apply some_sn, lookup_insert_is_Some; by left).
      rewrite pv_sn, pv_insert. by case_decide. }
    assert (Hbd3 : forall y, bd hv3 y = if decide (y = a) then Some (LNode al (Some v)) else bd hv y).
    { intros y. unfold hv3, hv2, hv1. rewrite bd_sp, bd_sn, bd_insert. done. }
    assert (Hdm3 : dom hv3 = {[a]} ∪ dom hv).
    { unfold hv3, hv2, hv1. by rewrite dom_sp, dom_sn, dom_insert_L. }
    assert (Hr3 : rings ((a, a) :: pairs ((hdr, l ++ r) :: R)) hv3).
    { pose proof (own_rings _ _ _ Ho) as (Hf & Hn & He2). split_and!.
      - apply Forall_cons_2; [split; simpl; [rewrite Hnx3|rewrite Hpv3]; by rewrite decide_True|].
        eapply (links_other _ hv hv3 [a] [a]); [done|..].
        + intros y. rewrite pairs_fst. set_solver.
        + intros y. rewrite pairs_snd. set_solver.
        + intros y Hy. rewrite Hnx3, decide_False; [done|set_solver].
        + intros y Hy. rewrite Hpv3, decide_False; [done|set_solver].
      - simpl. rewrite pairs_fst. apply NoDup_cons. split; [done|]. by rewrite <-pairs_fst.
      - simpl. by rewrite He2. }
    eapply runs_check_ring; [done|exact Hr3|simpl; set_solver|].
    rbind. eapply runs_check_ring; [done|exact Hr3|simpl; set_solver|].
    rbind. unfold it_node. rbind. eapply runs_check_ring; [done|exact Hr3| |].
    { simpl. rewrite pairs_fst. apply elem_of_cons. right. apply hdx_in. }
    apply runs_ret. rbind.
    eapply (runs_inject cf _ _ _ _ a (hdx r.*1 hdr) (lastd hdr l.*1) (opath hdr l.*1 ++ tpath r.*1 hdr ++ pairs R)); [done|exact Hr3| |].
    { rewrite pairs_cons, fmap_app, path_split. perm_solve. }
    intros hv4 Hr4 Hdm4 Hbd4 Hh4.
    assert (Ho4 : lists_own al ((hdr, l ++ (a, v) :: r) :: R) hv4).
    { eapply own_after_insert; [exact Ho|done|..].
      - destruct Hr4 as (Hf4 & _). rewrite pairs_cons, fmap_app, path_split. simpl. rewrite path_split0.
        eapply Forall_perm; [|exact Hf4].
        change (list_fmap _ _ fst r) with (r.*1). perm_solve.
      - intros y. rewrite <-!elem_of_dom, Hdm4, Hdm3. set_solver.
      - intros y. by rewrite Hbd4, Hbd3. }
    eapply runs_mk_iter; [exact Hh4|exact Ho4|apply node_in|].
    eapply Hok; try done.
  Qed.

  (** ** Erasure *)

  Lemma runs_kill w hv hf al a v (Q : _ -> W -> Prop) :
    heap_is w hv hf -> bd hv a = Some (LNode al (Some v)) ->
    Q tt (set_heap (delete a hv ∪ hf) w) ->
    runs (destroy_value a) w (fun _ w' => runs (deallocate_node al a) w' Q).
  Proof.
    intros [Hw Hd] Hb HQ. unfold bd in Hb. destruct (hv !! a) as [[x y b]|] eqn:E; [|done]. simpl in Hb. simplify_eq.
    assert (Hw' : w_heap w = <[a := LCell x y (LNode al (Some v))]> (delete a (w_heap w))).
    { rewrite insert_delete; [done|]. rewrite Hw. by apply lookup_union_Some_l. }
    eapply runs_destroy_value; [exact Hw'|]. eapply runs_deallocate_node; [simpl; reflexivity|].
    rewrite delete_idemp. rewrite Hw, delete_frag by eauto. exact HQ.
  Qed.

  Lemma runs_erase w al hdr l a v r R hv hf (Q : _ -> W -> Prop) :
    heap_is w hv hf -> lists_own al ((hdr, l ++ (a, v) :: r) :: R) hv ->
    (forall hv', lists_own al ((hdr, l ++ r) :: R) hv' -> hv' !! a = None ->
       heap_is (set_heap (hv' ∪ hf) w) hv' hf -> Q (hdx r.*1 hdr) (set_heap (hv' ∪ hf) w)) ->
    runs (lst_erase cf (Lst al hdr) a) w Q.
  Proof.
    intros Hh Ho HQ. unfold lst_erase. rbind. eapply runs_it_node; [done|exact Ho|apply node_in|].
    pose proof Ho as Ho'. replace (l ++ (a, v) :: r) with ((l ++ [(a, v)]) ++ r) in Ho'
      by (by rewrite <-(assoc_L (++))).
    pose proof (own_link_at _ _ _ _ _ _ Ho') as [Hn _]. rewrite fmap_app in Hn. simpl in Hn. rewrite lastd_snoc in Hn.
    rbind. eapply runs_get_next; [done..|]. rbind. eapply runs_mk_iter; [done|exact Ho'|apply hdx_in|].
    rbind. eapply (runs_remove cf _ _ _ _ a (lastd hdr l.*1) (hdx r.*1 hdr) (opath hdr l.*1 ++ tpath r.*1 hdr ++ pairs R));
      [done|exact (own_rings _ _ _ Ho)| |].
    { rewrite pairs_cons, fmap_app, path_split. simpl. rewrite path_split0.
      change (list_fmap _ _ fst r) with (r.*1). perm_solve. }
    intros hv1 Hr1 Hdm1 Hbd1 Hh1. rbind.
    eapply runs_mono; [eapply (runs_kill _ _ _ al a v); [exact Hh1|rewrite Hbd1; by eapply own_body|]|].
    { instantiate (1 := fun _ w' => w' = set_heap (delete a hv1 ∪ hf) w). done. }
    cbv beta. intros _ w2 Hw2. rbind. eapply runs_mono; [exact Hw2|]. cbv beta. intros _ w3 ->. apply runs_ret.
    apply HQ; [|apply lookup_delete|by eapply (heap_is_delete (set_heap (hv1 ∪ hf) w))].
    destruct (own_bodies _ _ _ Ho) as [Hb1 Hb2]. destruct Ho as (Hnd & Hd & _).
    assert (Hp : list_addrs ((hdr, l ++ (a, v) :: r) :: R) ≡ₚ a :: list_addrs ((hdr, l ++ r) :: R)).
    { rewrite !list_addrs_cons, !fmap_app, fmap_cons. simpl. perm_solve. }
    rewrite Hp in Hnd. apply NoDup_cons in Hnd as [Hna Hnd].
    assert (Hbda : forall x, x <> a -> bd (delete a hv1) x = bd hv x).
    { intros x Hx. rewrite <-Hbd1. unfold bd. by rewrite lookup_delete_ne. }
    apply own_intro.
    - done.
    - intros x. rewrite <-elem_of_dom, dom_delete_L, Hdm1, elem_of_difference, elem_of_singleton, elem_of_dom, Hd, Hp, elem_of_cons.
      split; [tauto|]. intros Hx. split; [tauto|]. by intros ->.
    - destruct Hr1 as (Hf1 & _). eapply (links_agree _ hv1).
      + eapply Forall_perm; [|exact Hf1]. rewrite pairs_cons, fmap_app, path_split. perm_solve.
      + intros x Hx. rewrite lookup_delete_ne; [done|]. intros ->. apply Hna. rewrite pairs_fst, pairs_snd in Hx. tauto.
    - intros x Hx. rewrite Hbda; [by apply Hb1|]. intros ->. apply Hna. rewrite list_addrs_perm. apply elem_of_app. by left.
    - intros x u Hx. rewrite Hbda.
      + apply Hb2. revert Hx. simpl. rewrite !elem_of_app, elem_of_cons. tauto.
      + intros ->. apply Hna. rewrite list_addrs_perm. apply elem_of_app. right. apply elem_of_list_fmap. by exists (a, u).
  Qed.

  (** ** Creation, destruction *)

  Lemma runs_init_empty w hv hf a c (Q : _ -> W -> Prop) :
    heap_is w (<[a := c]> hv) hf -> hv !! a = None ->
    (let hv' := <[a := LCell (Some a) (Some a) (ln_body c)]> hv in
     heap_is (set_heap (hv' ∪ hf) w) hv' hf -> Q tt (set_heap (hv' ∪ hf) w)) ->
    runs (init_empty cf a) w Q.
  Proof.
    intros Hh Ha HQ. unfold init_empty. rbind. eapply runs_set_next; [done|apply lookup_insert_is_Some; by left|].
    rbind. eapply runs_set_prev; [eapply heap_is_upd; [done|apply dom_sn]|apply some_sn, lookup_insert_is_Some; by left|].
    assert (Heq : sp a a (sn a a (<[a:=c]> hv)) = <[a := LCell (Some a) (Some a) (ln_body c)]> hv).
    { apply map_eq. intros x. unfold sp, sn. destruct (decide (x = a)) as [->|Hne].
      - rewrite !lookup_alter, !lookup_insert. done.
      - rewrite !lookup_alter_ne, !lookup_insert_ne by done. done. }
    rewrite Heq. cbv zeta in HQ.
    assert (Hh' : heap_is (set_heap (<[a := LCell (Some a) (Some a) (ln_body c)]> hv ∪ hf) w) (<[a := LCell (Some a) (Some a) (ln_body c)]> hv) hf).
    { eapply heap_is_upd; [exact Hh|]. by rewrite !dom_insert_L. }
    unfold set_heap at 1. simpl.
    eapply (runs_check cf _ _ _ a a a); [exact Hh'|..|by apply HQ].
    all: split; [rewrite nx_insert|rewrite pv_insert]; by rewrite decide_True.
  Qed.

  Lemma runs_lst_new w al ls hv hf al0 (Q : _ -> W -> Prop) :
    heap_is w hv hf -> lists_own al ls hv ->
    (forall a hv', w_heap w !! a = None -> lists_own al ((a, []) :: ls) hv' ->
       heap_is (set_heap (hv' ∪ hf) w) hv' hf -> Q (Lst al0 a) (set_heap (hv' ∪ hf) w)) ->
    runs (lst_new cf al0) w Q.
  Proof.
    intros Hh Ho HQ. unfold lst_new. rbind. apply runs_new_local. intros a Ha.
    destruct (heap_is_insert w hv hf a (LCell None None LHead) Hh Ha) as [Hw1 Hd1]. rewrite Hw1.
    assert (Hva : hv !! a = None) by (destruct Hh as [Hw _]; rewrite Hw in Ha; by apply lookup_union_None in Ha as [? _]).
    rbind. eapply runs_init_empty; [split; done|done|]. cbv zeta. simpl. intros Hh'. apply runs_ret.
    apply HQ; [done|by apply own_new|done].
  Qed.

  Fixpoint dels (l : list addr) (h : H) : H := match l with [] => h | x :: l => dels l (delete x h) end.
  Lemma dels_lookup l h x : dels l h !! x = if decide (x ∈ l) then None else h !! x.
  Proof.
    revert h. induction l as [|y l IH]; intros h; simpl.
    - done.
    - rewrite IH. destruct (decide (x = y)) as [->|Hne].
      + rewrite lookup_delete. rewrite (decide_True (P := y ∈ y :: l)) by set_solver. by case_decide.
      + rewrite lookup_delete_ne by done. destruct (decide (x ∈ l)), (decide (x ∈ y :: l)); set_solver.
  Qed.

  Lemma runs_destroy_loop fuel w hv hf al hdr (r : list (addr * V)) (Q : _ -> W -> Prop) :
    heap_is w hv hf ->
    Forall (fun p => nx hv p.1 = Some p.2) (tpath r.*1 hdr) ->
    (forall a v, (a, v) ∈ r -> bd hv a = Some (LNode al (Some v))) ->
    NoDup r.*1 -> hdr ∉ r.*1 -> length r < fuel ->
    (heap_is (set_heap (dels r.*1 hv ∪ hf) w) (dels r.*1 hv) hf -> Q tt (set_heap (dels r.*1 hv ∪ hf) w)) ->
    runs (destroy_loop fuel al hdr (hdx r.*1 hdr)) w Q.
  Proof.
    revert w hv r. induction fuel as [|fuel IH]; intros w hv r Hh Hn Hb Hnd Hhdr Hf HQ; [lia|]. simpl.
    destruct r as [|[a v] r]; simpl.
    - rewrite decide_True by done. apply runs_ret. simpl in HQ. rewrite (heap_is_self _ _ _ Hh) in HQ. by apply HQ.
    - simpl in *. rewrite not_elem_of_cons in Hhdr. destruct Hhdr as [Hne Hhdr]. apply NoDup_cons in Hnd as [Hna Hnd].
      rewrite path_split0 in Hn. apply Forall_cons in Hn as [Hn0 Hn]. simpl in Hn0.
      rewrite decide_False by done. rbind. eapply runs_get_next; [done..|]. rbind.
      eapply runs_mono; [eapply (runs_kill _ _ _ al a v); [exact Hh|apply Hb; set_solver|]|].
      { instantiate (1 := fun _ w' => w' = set_heap (delete a hv ∪ hf) w). done. }
      cbv beta. intros _ w2 Hw2. rbind. eapply runs_mono; [exact Hw2|]. cbv beta. intros _ w3 ->.
      eapply (IH _ (delete a hv)); [by apply heap_is_delete|..]; [| |done|done|lia|done].
      + assert (Htp : forall x, x ∈ (tpath r.*1 hdr).*1 -> x ∈ r.*1).
        { destruct r as [|[b u] r]; simpl; [done|]. intros x. by rewrite path_fst. }
        rewrite Forall_forall in Hn |- *. intros p Hp. unfold nx. rewrite lookup_delete_ne; [by apply Hn|].
        intros ->. apply Hna, Htp. apply elem_of_list_fmap. by exists p.
      + intros x u Hx. unfold bd. rewrite lookup_delete_ne; [apply Hb; set_solver|].
        intros ->. apply Hna. apply elem_of_list_fmap. by exists (x, u).
  Qed.

  Lemma runs_destroy_content w al hdr xs R hv hf al0 (Q : _ -> W -> Prop) :
    heap_is w hv hf -> lists_own al ((hdr, xs) :: R) hv -> (al0 = al \/ xs = []) ->
    (heap_is (set_heap (dels xs.*1 hv ∪ hf) w) (dels xs.*1 hv) hf -> Q tt (set_heap (dels xs.*1 hv ∪ hf) w)) ->
    runs (destroy_list_content (Lst al0 hdr)) w Q.
  Proof.
    intros Hh Ho Hal HQ. pose proof (own_link_at _ _ [] xs _ _ Ho) as [Hn _]. simpl in Hn.
    unfold destroy_list_content. simpl. rbind. eapply runs_get_next; [done..|].
    rbind. eapply runs_heap_fuel; [done..|]. intros fuel Hfu. pose proof Ho as Ho2.
    destruct Ho as (Hnd & _ & Hs). destruct (nodup_hdr _ _ _ Hnd) as (H1 & H2 & _).
    destruct (Hs hdr xs) as (_ & _ & Hb); [set_solver|].
    assert (Hpth : Forall (fun p => nx hv p.1 = Some p.2) (tpath xs.*1 hdr)).
    { destruct (own_rings _ _ _ Ho2) as (Hf & _). rewrite pairs_cons, path_split0 in Hf. simpl in Hf.
      apply Forall_cons in Hf as [_ Hf]. apply Forall_app in Hf as [Hf _].
      eapply Forall_impl; [exact Hf|]. intros p [? _]. done. }
    destruct Hal as [->| ->].
    - eapply runs_destroy_loop; try done. lia.
    - destruct fuel; [lia|]. simpl. rewrite decide_True by done. apply runs_ret. simpl in HQ.
      rewrite (heap_is_self _ _ _ Hh) in HQ. by apply HQ.
  Qed.

  Lemma runs_lst_destroy w al hdr xs R hv hf al0 (Q : _ -> W -> Prop) :
    heap_is w hv hf -> lists_own al ((hdr, xs) :: R) hv -> (al0 = al \/ xs = []) ->
    (forall hv', lists_own al R hv' -> heap_is (set_heap (hv' ∪ hf) w) hv' hf -> Q tt (set_heap (hv' ∪ hf) w)) ->
    runs (lst_destroy (Lst al0 hdr)) w Q.
  Proof.
    intros Hh Ho Hal HQ. unfold lst_destroy. rbind. eapply runs_destroy_content; [done..|]. intros Hh1.
    pose proof Ho as (Hnd & Hd & _). destruct (nodup_hdr _ _ _ Hnd) as (H1 & H2 & H3 & H4 & _).
    assert (Hhd : is_Some (dels xs.*1 hv !! hdr)).
    { rewrite dels_lookup, decide_False by done. apply Hd. apply hdr_in. }
    simpl. destruct Hhd as [c Hc]. eapply runs_free_cell; [simpl; by apply lookup_union_Some_l|]. simpl.
    rewrite delete_frag by (eauto; apply Hh1).
    apply HQ; [|by eapply (heap_is_delete (set_heap (dels xs.*1 hv ∪ hf) w))].
    eapply (own_restrict al [(hdr, xs)]); [exact Ho|..].
    - intros x Hx. rewrite lookup_delete_ne by (intros ->; done). rewrite dels_lookup, decide_False; [done|].
      intros Hx2. by eapply H4.
    - intros x. rewrite lookup_delete_is_Some, dels_lookup. intros [Hne Hx]. destruct (decide (x ∈ xs.*1)); [by destruct Hx|].
      apply Hd in Hx. rewrite list_addrs_cons in Hx. set_solver.
  Qed.

  Lemma runs_lst_clear w al hdr xs R hv hf al0 (Q : _ -> W -> Prop) :
    heap_is w hv hf -> lists_own al ((hdr, xs) :: R) hv -> (al0 = al \/ xs = []) ->
    (forall hv', lists_own al ((hdr, []) :: R) hv' -> heap_is (set_heap (hv' ∪ hf) w) hv' hf -> Q tt (set_heap (hv' ∪ hf) w)) ->
    runs (lst_clear cf (Lst al0 hdr)) w Q.
  Proof.
    intros Hh Ho Hal HQ. unfold lst_clear. rbind. eapply runs_destroy_content; [done..|]. intros Hh1.
    pose proof Ho as (Hnd & Hd & _). destruct (nodup_hdr _ _ _ Hnd) as (H1 & H2 & H3 & H4 & _).
    assert (Hhd : bd (dels xs.*1 hv) hdr = Some LHead).
    { unfold bd. rewrite dels_lookup, decide_False by done. by eapply own_hbody. }
    simpl. unfold bd in Hhd. destruct (dels xs.*1 hv !! hdr) as [c|] eqn:Hc; [|done]. simpl in Hhd. injection Hhd as Hhd.
    set (hv2 := delete hdr (dels xs.*1 hv)).
    assert (Heq : dels xs.*1 hv = <[hdr := c]> hv2) by (unfold hv2; by rewrite insert_delete).
    rewrite Heq in Hh1 |- *.
    eapply runs_init_empty; [exact Hh1|apply lookup_delete|]. cbv zeta. intros Hh2. rewrite Hhd in *.
    apply HQ; [|done]. apply own_new; [|apply lookup_delete].
    eapply (own_restrict al [(hdr, xs)]); [exact Ho|..].
    - intros x Hx. unfold hv2. rewrite lookup_delete_ne by (intros ->; done). rewrite dels_lookup, decide_False; [done|].
      intros Hx2. by eapply H4.
    - intros x. unfold hv2. rewrite lookup_delete_is_Some, dels_lookup. intros [Hne Hx]. destruct (decide (x ∈ xs.*1)); [by destruct Hx|].
      apply Hd in Hx. rewrite list_addrs_cons in Hx. set_solver.
  Qed.
End mut.
