(** * Swap, move, splice: the operations that only relink nodes *)
From Verif Require Export ListMut.

Section relink.
  Context {V : Type} (cf : cfg V).
  Notation H := (gmap addr (lcell V)).
  Notation W := (world (lcell V)).
  Notation L := (list (addr * list (addr * V))).
  Implicit Types hv hf : H.
  Implicit Types w : W.
  Implicit Types ls R : L.

  (** The continuation after an operation that only relinks. *)
  Definition relinked {A} (al : alloc_id) (ls : L) (hf : H) (w : W) (a : A) (Q : A -> W -> Prop) : Prop :=
    forall hv', lists_own al ls hv' -> heap_is (set_heap (hv' ∪ hf) w) hv' hf -> Q a (set_heap (hv' ∪ hf) w).

  Lemma path_loop (x : addr) (l : list addr) (h : addr) : path h (x :: l) h = (h, x) :: opath x l ++ [(lastd x l, h)].
  Proof. done. Qed.

  Lemma runs_swap_nodes w al h1 x1 h2 x2 R hv hf (Q : _ -> W -> Prop) :
    heap_is w hv hf -> lists_own al ((h1, x1) :: (h2, x2) :: R) hv ->
    relinked al ((h1, x2) :: (h2, x1) :: R) hf w tt Q ->
    runs (swap_nodes cf h1 h2) w Q.
  Proof.
    intros Hh Ho HQ. pose proof (own_rings _ _ _ Ho) as Hr.
    assert (Hfin : forall ps hv', rings ps hv' -> dom hv' = dom hv -> (forall x, bd hv' x = bd hv x) ->
      heap_is (set_heap (hv' ∪ hf) w) hv' hf ->
      pairs ((h1, x2) :: (h2, x1) :: R) ≡ₚ ps -> Q tt (set_heap (hv' ∪ hf) w)).
    { intros ps hv' (Hf & _) Hdm Hbd Hh' Hp. apply HQ; [|done].
      eapply own_relink; [exact Ho|by eapply Forall_perm|done|done|done|]. simpl. perm_solve. }
    destruct x1 as [|[a1 v1] x1], x2 as [|[a2 v2] x2].
    - eapply runs_swap_none; [exact Hh|exact Hr|rewrite !pairs_cons; simpl; reflexivity|].
      rewrite <-(heap_is_self _ _ _ Hh). apply HQ; [done|]. by rewrite (heap_is_self _ _ _ Hh).
    - eapply (runs_swap_right cf _ _ _ _ h1 h2 a2 (lastd a2 x2.*1) (opath a2 x2.*1 ++ pairs R)); [exact Hh|exact Hr| |].
      { rewrite !pairs_cons. rewrite fmap_cons. simpl ((_, _).1). rewrite path_loop. unfold path; simpl. perm_solve. }
      intros hv' Hr' Hdm Hbd Hh'. eapply Hfin; try done.
      rewrite !pairs_cons. rewrite fmap_cons. simpl ((_, _).1). rewrite path_loop. unfold path; simpl. perm_solve.
    - eapply (runs_swap_left cf _ _ _ _ h1 h2 a1 (lastd a1 x1.*1) (opath a1 x1.*1 ++ pairs R)); [exact Hh|exact Hr| |].
      { rewrite !pairs_cons. rewrite fmap_cons. simpl ((_, _).1). rewrite path_loop. unfold path; simpl. perm_solve. }
      intros hv' Hr' Hdm Hbd Hh'. eapply Hfin; try done.
      rewrite !pairs_cons. rewrite fmap_cons. simpl ((_, _).1). rewrite path_loop. unfold path; simpl. perm_solve.
    - eapply (runs_swap_both cf _ _ _ _ h1 h2 a1 (lastd a1 x1.*1) a2 (lastd a2 x2.*1) (opath a1 x1.*1 ++ opath a2 x2.*1 ++ pairs R));
        [exact Hh|exact Hr| |].
      { rewrite !pairs_cons. rewrite !fmap_cons. simpl ((_, _).1). rewrite !path_loop. perm_solve. }
      intros hv' Hr' Hdm Hbd Hh'. eapply Hfin; try done.
      rewrite !pairs_cons. rewrite !fmap_cons. simpl ((_, _).1). rewrite !path_loop. perm_solve.
  Qed.

  Lemma runs_lst_swap w al h1 x1 h2 x2 R hv hf al1 al2 (Q : _ -> W -> Prop) :
    heap_is w hv hf -> lists_own al ((h1, x1) :: (h2, x2) :: R) hv ->
    relinked al ((h1, x2) :: (h2, x1) :: R) hf w tt Q ->
    runs (lst_swap cf (Lst al1 h1) (Lst al2 h2)) w Q.
  Proof.
    intros Hh Ho HQ. unfold lst_swap. simpl.
    eapply (runs_swap_nodes w al h2 x2 h1 x1 R); [done|eapply own_perm; [|done]; apply perm_swap|].
    intros hv' Ho' Hh'. apply HQ; [|done]. eapply own_perm; [|done]. apply perm_swap.
  Qed.

  (** Swapping a list with itself changes nothing. *)
  Lemma runs_swap_self w al h1 x1 R hv hf (Q : _ -> W -> Prop) :
    heap_is w hv hf -> lists_own al ((h1, x1) :: R) hv ->
    relinked al ((h1, x1) :: R) hf w tt Q ->
    runs (swap_nodes cf h1 h1) w Q.
  Proof.
    intros Hh Ho HQ. pose proof (own_rings _ _ _ Ho) as Hr.
    assert (Hck : forall w' hv' (P : unit -> W -> Prop), lists_own al ((h1, x1) :: R) hv' -> heap_is w' hv' hf -> P tt w' -> runs (check_node cf h1) w' P).
    { intros w' hv' P Ho' Hh' HP. eapply runs_check_own; [done..|apply hdr_in|done]. }
    unfold swap_nodes. rbind. eapply Hck; [done..|]. rbind. eapply Hck; [done..|].
    pose proof (own_link_at _ _ [] x1 _ _ Ho) as [Hn _]. simpl in Hn.
    rbind. eapply runs_get_next; [done..|]. rbind. eapply runs_get_next; [done..|].
    rbind. destruct x1 as [|[a v] x1]; simpl.
    - rewrite decide_False by naive_solver. rewrite decide_False by naive_solver. apply runs_ret.
      rbind. eapply Hck; [done..|]. eapply Hck; [done..|].
      rewrite <-(heap_is_self _ _ _ Hh). apply HQ; [done|]. by rewrite (heap_is_self _ _ _ Hh).
    - pose proof (own_hdr_ne _ _ [] _ _ _ _ _ Ho) as Hne. rewrite decide_True by done. rewrite decide_True by done.
      pose proof (own_link_at al h1 ((a, v) :: x1) [] R hv) as Hl. rewrite app_nil_r in Hl. specialize (Hl Ho).
      destruct Hl as [Hln Hlp]. simpl in Hn, Hln, Hlp. change (list_fmap _ _ fst x1) with (x1.*1) in *.
      set (z := lastd a x1.*1) in *.
      pose proof (own_link_at _ _ [] ((a, v) :: x1) _ _ Ho) as [_ Hap]. simpl in Hap.
      assert (Hsn : forall x b (hh : H), nx hh x = Some b -> sn x b hh = hh).
      { intros x b hh Hb. unfold sn. apply map_eq. intros y. unfold nx in Hb.
        destruct (decide (y = x)) as [->|]; [|by rewrite lookup_alter_ne].
        rewrite lookup_alter. destruct (hh !! x) as [[]|]; [|done]. simpl in *. by simplify_eq. }
      assert (Hsp : forall x b (hh : H), pv hh x = Some b -> sp x b hh = hh).
      { intros x b hh Hb. unfold sp. apply map_eq. intros y. unfold pv in Hb.
        destruct (decide (y = x)) as [->|]; [|by rewrite lookup_alter_ne].
        rewrite lookup_alter. destruct (hh !! x) as [[]|]; [|done]. simpl in *. by simplify_eq. }
      assert (Hsetn : forall x b (P : unit -> W -> Prop), nx hv x = Some b -> P tt w -> runs (set_next x b) w P).
      { intros x b P Hb HP. eapply runs_set_next; [done|by eapply nx_some|]. rewrite Hsn by done. by rewrite (heap_is_self _ _ _ Hh). }
      assert (Hsetp : forall x b (P : unit -> W -> Prop), pv hv x = Some b -> P tt w -> runs (set_prev x b) w P).
      { intros x b P Hb HP. eapply runs_set_prev; [done|by eapply pv_some|]. rewrite Hsp by done. by rewrite (heap_is_self _ _ _ Hh). }
      rbind. apply Hsetn; [done|]. rbind. apply Hsetn; [done|].
      rbind. eapply runs_get_prev; [done..|]. rbind. eapply runs_get_prev; [done..|].
      rbind. apply Hsetp; [done|]. rbind. apply Hsetp; [done|].
      rbind. eapply runs_get_prev; [done..|]. rbind. apply Hsetn; [done|].
      rbind. eapply runs_get_next; [done..|]. rbind. apply Hsetp; [done|].
      rbind. eapply runs_get_prev; [done..|]. rbind. apply Hsetn; [done|].
      rbind. eapply runs_get_next; [done..|]. apply Hsetp; [done|].
      rbind. eapply Hck; [done..|]. eapply Hck; [done..|].
      rewrite <-(heap_is_self _ _ _ Hh). apply HQ; [done|]. by rewrite (heap_is_self _ _ _ Hh).
  Qed.

  (** ** Transfer of a range *)

  Lemma tpath_app y m r b : tpath ((y :: m) ++ r) b = opath y m ++ (lastd y m, hdx r b) :: tpath r b.
  Proof. simpl. by rewrite path_split. Qed.

  Lemma runs_transfer_own w al ls ls' hv hf pos first last tp fp lp (P : list (addr * addr)) (Q : _ -> W -> Prop) :
    heap_is w hv hf -> lists_own al ls hv ->
    pairs ls ≡ₚ (tp, pos) :: (fp, first) :: (lp, last) :: P ->
    pairs ls' ≡ₚ (tp, first) :: (lp, pos) :: (fp, last) :: P ->
    ls'.*1 ≡ₚ ls.*1 -> concat ls'.*2 ≡ₚ concat ls.*2 ->
    relinked al ls' hf w tt Q ->
    runs (lst_transfer cf pos first last) w Q.
  Proof.
    intros Hh Ho Hp Hp' H1 H2 HQ. pose proof (own_rings _ _ _ Ho) as Hr.
    assert (Hin : forall x, x ∈ [pos; first; last] -> x ∈ list_addrs ls).
    { intros x Hx. rewrite <-pairs_snd, Hp. simpl. revert Hx. clear. rewrite !elem_of_cons, elem_of_nil. tauto. }
    unfold lst_transfer.
    rbind. eapply runs_it_node; [done|exact Ho|apply Hin; set_solver|].
    rbind. eapply runs_it_node; [done|exact Ho|apply Hin; set_solver|].
    rbind. eapply runs_it_node; [done|exact Ho|apply Hin; set_solver|].
    eapply runs_transfer; [exact Hh|exact Hr|exact Hp|].
    intros hv' (Hf & _) Hdm Hbd Hh'. apply HQ; [|done].
    eapply own_relink; [exact Ho|by eapply Forall_perm|done..].
  Qed.

  (** from one list to another *)
  Lemma runs_transfer_other w al h1 l r h2 a m b R hv hf (Q : _ -> W -> Prop) :
    heap_is w hv hf -> lists_own al ((h1, l ++ r) :: (h2, a ++ m ++ b) :: R) hv -> m <> [] ->
    relinked al ((h1, l ++ m ++ r) :: (h2, a ++ b) :: R) hf w tt Q ->
    runs (lst_transfer cf (hdx r.*1 h1) (hdx m.*1 h2) (hdx b.*1 h2)) w Q.
  Proof.
    intros Hh Ho Hm HQ. destruct m as [|[y v] m]; [done|].
    eapply (runs_transfer_own w al _ _ hv hf _ _ _ (lastd h1 l.*1) (lastd h2 a.*1) (lastd y m.*1)
      (opath h1 l.*1 ++ tpath r.*1 h1 ++ opath h2 a.*1 ++ opath y m.*1 ++ tpath b.*1 h2 ++ pairs R)); [done|exact Ho|..|exact HQ].
    - rewrite !pairs_cons, !fmap_app, !fmap_cons, !path_split, tpath_app. simpl (hdx _ _); simpl ((_, _).1). perm_solve.
    - rewrite !pairs_cons, !fmap_app, !fmap_cons, !path_split, tpath_app. simpl (hdx _ _); simpl ((_, _).1). perm_solve.
    - done.
    - simpl. perm_solve.
  Qed.

  (** towards the front of the same list *)
  Lemma runs_transfer_front w al hdr l x m b R hv hf (Q : _ -> W -> Prop) :
    heap_is w hv hf -> lists_own al ((hdr, l ++ x ++ m ++ b) :: R) hv -> m <> [] -> x <> [] ->
    relinked al ((hdr, l ++ m ++ x ++ b) :: R) hf w tt Q ->
    runs (lst_transfer cf (hdx x.*1 hdr) (hdx m.*1 hdr) (hdx b.*1 hdr)) w Q.
  Proof.
    intros Hh Ho Hm Hx HQ. destruct m as [|[y v] m]; [done|]. destruct x as [|[z u] x]; [done|].
    eapply (runs_transfer_own w al _ _ hv hf _ _ _ (lastd hdr l.*1) (lastd z x.*1) (lastd y m.*1)
      (opath hdr l.*1 ++ opath z x.*1 ++ opath y m.*1 ++ tpath b.*1 hdr ++ pairs R)); [done|exact Ho|..|exact HQ].
    - rewrite !pairs_cons, !fmap_app, !fmap_cons, !path_split, !tpath_app. simpl (hdx _ _); simpl ((_, _).1). perm_solve.
    - rewrite !pairs_cons, !fmap_app, !fmap_cons, !path_split, !tpath_app. simpl (hdx _ _); simpl ((_, _).1). perm_solve.
    - done.
    - simpl. perm_solve.
  Qed.

  (** towards the end of the same list *)
  Lemma runs_transfer_back w al hdr a m x r R hv hf (Q : _ -> W -> Prop) :
    heap_is w hv hf -> lists_own al ((hdr, a ++ m ++ x ++ r) :: R) hv -> m <> [] -> x <> [] ->
    relinked al ((hdr, a ++ x ++ m ++ r) :: R) hf w tt Q ->
    runs (lst_transfer cf (hdx r.*1 hdr) (hdx m.*1 hdr) (hdx x.*1 hdr)) w Q.
  Proof.
    intros Hh Ho Hm Hx HQ. destruct m as [|[y v] m]; [done|]. destruct x as [|[z u] x]; [done|].
    eapply (runs_transfer_own w al _ _ hv hf _ _ _ (lastd z x.*1) (lastd hdr a.*1) (lastd y m.*1)
      (opath hdr a.*1 ++ opath z x.*1 ++ opath y m.*1 ++ tpath r.*1 hdr ++ pairs R)); [done|exact Ho|..|exact HQ].
    - rewrite !pairs_cons, !fmap_app, !fmap_cons, !path_split, !tpath_app. simpl (hdx _ _); simpl ((_, _).1). perm_solve.
    - rewrite !pairs_cons, !fmap_app, !fmap_cons, !path_split, !tpath_app. simpl (hdx _ _); simpl ((_, _).1). perm_solve.
    - done.
    - simpl. perm_solve.
  Qed.

  (** ** Splice *)

  Lemma runs_splice w al h1 l r h2 xs R hv hf al1 al2 (Q : _ -> W -> Prop) :
    heap_is w hv hf -> lists_own al ((h1, l ++ r) :: (h2, xs) :: R) hv ->
    relinked al ((h1, l ++ xs ++ r) :: (h2, []) :: R) hf w tt Q ->
    runs (lst_splice cf (Lst al1 h1) (hdx r.*1 h1) (Lst al2 h2)) w Q.
  Proof.
    intros Hh Ho HQ. assert (Ho2 : lists_own al ((h2, xs) :: (h1, l ++ r) :: R) hv).
    { eapply own_perm; [|done]. apply perm_swap. }
    unfold lst_splice. rbind. eapply runs_lst_empty; [done|exact Ho2|].
    destruct xs as [|x xs]; simpl.
    - apply runs_ret. rewrite <-(heap_is_self _ _ _ Hh). apply HQ; [done|]. by rewrite (heap_is_self _ _ _ Hh).
    - rbind. eapply runs_begin; [done|exact Ho2|]. rbind. eapply runs_end; [done|exact Ho2|].
      eapply (runs_transfer_other w al h1 l r h2 [] (x :: xs) [] R); [done|by rewrite app_nil_r|done|]. done.
  Qed.

  Lemma own_in_tail al hdr xs R hv l : lists_own al ((hdr, xs) :: R) hv -> l ∈ list_addrs R -> l ∈ list_addrs ((hdr, xs) :: R).
  Proof. rewrite list_addrs_cons. set_solver. Qed.

  (** splice of one element from another list *)
  Lemma runs_splice_one_other w al h1 l r h2 a x v b R hv hf (Q : _ -> W -> Prop) :
    heap_is w hv hf -> lists_own al ((h1, l ++ r) :: (h2, a ++ (x, v) :: b) :: R) hv ->
    relinked al ((h1, l ++ (x, v) :: r) :: (h2, a ++ b) :: R) hf w tt Q ->
    runs (lst_splice_one cf (hdx r.*1 h1) x) w Q.
  Proof.
    intros Hh Ho HQ. assert (Ho2 : lists_own al ((h2, a ++ (x, v) :: b) :: (h1, l ++ r) :: R) hv).
    { eapply own_perm; [|done]. apply perm_swap. }
    assert (Hb : hdx b.*1 h2 ∈ list_addrs ((h2, a ++ (x, v) :: b) :: (h1, l ++ r) :: R)).
    { replace (a ++ (x, v) :: b) with ((a ++ [(x, v)]) ++ b) by (by rewrite <-(assoc_L (++))). apply hdx_in. }
    assert (Hd : forall y, y ∈ list_addrs [(h2, a ++ (x, v) :: b)] -> hdx r.*1 h1 <> y).
    { intros y Hy <-. destruct Ho as (Hn & _). rewrite list_addrs_cons in Hn. apply NoDup_app in Hn as (_ & Hn & _).
      apply (Hn (hdx r.*1 h1)).
      - pose proof (hdx_in h1 l r []) as Hx. rewrite list_addrs_cons in Hx. simpl in Hx. by rewrite app_nil_r in Hx.
      - rewrite list_addrs_cons in Hy |- *. simpl in Hy. rewrite app_nil_r in Hy. apply elem_of_app. by left. }
    unfold lst_splice_one. rbind. eapply runs_it_node; [done|exact Ho2|apply node_in|].
    rbind. eapply runs_mk_iter; [done|exact Ho2|apply node_in|].
    rbind. eapply runs_it_inc; [done|exact Ho2|].
    rbind. eapply runs_it_eq; [done|exact Ho|apply hdx_in| |].
    { eapply own_in_tail; [done|]. apply node_in. }
    rewrite bool_decide_false; [|apply Hd, (node_in h2 a x v b [])].
    rbind. eapply runs_it_eq; [done|exact Ho2| |done|].
    { eapply own_in_tail; [done|]. apply hdx_in. }
    rewrite bool_decide_false.
    2: { apply Hd. replace (a ++ (x, v) :: b) with ((a ++ [(x, v)]) ++ b) by (by rewrite <-(assoc_L (++))). apply hdx_in. }
    eapply (runs_transfer_other w al h1 l r h2 a [(x, v)] b R); done.
  Qed.
  Lemma own_nodup_at al hdr l y (u : V) r R hv z (t : V) r1 r2 :
    lists_own al ((hdr, l ++ (y, u) :: r) :: R) hv -> r = r1 ++ (z, t) :: r2 -> y <> z.
  Proof.
    intros (Hn & _) -> ->. apply nodup_hdr in Hn as (_ & Hn & _).
    rewrite fmap_app, fmap_cons, fmap_app, fmap_cons in Hn. apply NoDup_app in Hn as (_ & _ & Hn).
    apply NoDup_cons in Hn as [Hn _]. apply Hn. simpl. set_solver.
  Qed.

  (** splice of one element within a list: towards the front ... *)
  Lemma runs_splice_one_front w al hdr l x m v b R hv hf (Q : _ -> W -> Prop) :
    heap_is w hv hf -> lists_own al ((hdr, l ++ x ++ (m, v) :: b) :: R) hv -> x <> [] ->
    relinked al ((hdr, l ++ (m, v) :: x ++ b) :: R) hf w tt Q ->
    runs (lst_splice_one cf (hdx x.*1 hdr) m) w Q.
  Proof.
    intros Hh Ho Hx HQ. pose proof Ho as Ho2. rewrite (assoc_L (++)) in Ho2.
    pose proof Ho2 as Ho3. replace ((l ++ x) ++ (m, v) :: b) with ((l ++ x ++ [(m, v)]) ++ b) in Ho3
      by (by rewrite <-!(assoc_L (++))).
    destruct x as [|[y u] x]; [done|].
    unfold lst_splice_one. rbind. eapply runs_it_node; [done|exact Ho2|apply node_in|].
    rbind. eapply runs_mk_iter; [done|exact Ho2|apply node_in|].
    rbind. eapply runs_it_inc; [done|exact Ho2|].
    rbind. eapply runs_it_eq; [done|exact Ho2| |apply node_in|].
    { rewrite <-(assoc_L (++)). apply (hdx_in hdr l (((y, u) :: x) ++ (m, v) :: b)). }
    rewrite bool_decide_false by (by eapply own_nodup_at).
    rbind. eapply runs_it_eq; [done|exact Ho3| |apply hdx_in|].
    { rewrite <-!(assoc_L (++)). apply (hdx_in hdr l (((y, u) :: x) ++ [(m, v)] ++ b)). }
    rewrite bool_decide_false.
    2: { simpl. destruct b as [|[z t] b]; simpl; [by eapply own_hdr_ne|].
         eapply (own_nodup_at _ _ l y u _ _ _ z t (x ++ [(m, v)])); [exact Ho|by rewrite <-!(assoc_L (++))]. }
    eapply (runs_transfer_front w al hdr l ((y, u) :: x) [(m, v)] b R); done.
  Qed.
  (** ... in front of itself or of its successor: nothing happens *)
  Lemma runs_splice_one_here w al hdr l m v b R hv hf pos (Q : _ -> W -> Prop) :
    heap_is w hv hf -> lists_own al ((hdr, l ++ (m, v) :: b) :: R) hv -> (pos = m \/ pos = hdx b.*1 hdr) ->
    Q tt w -> runs (lst_splice_one cf pos m) w Q.
  Proof.
    intros Hh Ho Hp HQ.
    pose proof Ho as Ho3. replace (l ++ (m, v) :: b) with ((l ++ [(m, v)]) ++ b) in Ho3
      by (by rewrite <-!(assoc_L (++))).
    unfold lst_splice_one. rbind. eapply runs_it_node; [done|exact Ho|apply node_in|].
    rbind. eapply runs_mk_iter; [done|exact Ho|apply node_in|].
    rbind. eapply runs_it_inc; [done|exact Ho|].
    assert (Hin : pos ∈ list_addrs ((hdr, l ++ (m, v) :: b) :: R)).
    { destruct Hp as [->| ->]; [apply node_in|].
      replace (l ++ (m, v) :: b) with ((l ++ [(m, v)]) ++ b) by (by rewrite <-!(assoc_L (++))). apply hdx_in. }
    rbind. eapply runs_it_eq; [done|exact Ho|exact Hin|apply node_in|]. case_bool_decide; [by apply runs_ret|].
    destruct Hp as [?| ->]; [done|].
    rbind. eapply runs_it_eq; [done|exact Ho3|apply hdx_in|apply hdx_in|].
    rewrite bool_decide_true by done. by apply runs_ret.
  Qed.
  (** ... towards the end *)
  Lemma runs_splice_one_back w al hdr a m v x r R hv hf (Q : _ -> W -> Prop) :
    heap_is w hv hf -> lists_own al ((hdr, a ++ (m, v) :: x ++ r) :: R) hv -> x <> [] ->
    relinked al ((hdr, a ++ x ++ (m, v) :: r) :: R) hf w tt Q ->
    runs (lst_splice_one cf (hdx r.*1 hdr) m) w Q.
  Proof.
    intros Hh Ho Hx HQ.
    pose proof Ho as Ho2. replace (a ++ (m, v) :: x ++ r) with ((a ++ (m, v) :: x) ++ r) in Ho2
      by (by rewrite <-!(assoc_L (++))).
    pose proof Ho as Ho3. replace (a ++ (m, v) :: x ++ r) with ((a ++ [(m, v)]) ++ x ++ r) in Ho3
      by (by rewrite <-!(assoc_L (++))).
    destruct x as [|[y u] x]; [done|].
    unfold lst_splice_one. rbind. eapply runs_it_node; [done|exact Ho|apply node_in|].
    rbind. eapply runs_mk_iter; [done|exact Ho|apply node_in|].
    rbind. eapply runs_it_inc; [done|exact Ho|].
    rbind. eapply runs_it_eq; [done|exact Ho2|apply hdx_in| |].
    { rewrite <-!(assoc_L (++)). simpl. apply node_in. }
    rewrite bool_decide_false.
    2: { destruct r as [|[z t] r]; simpl; [apply not_eq_sym; by eapply own_hdr_ne|]. apply not_eq_sym.
         eapply (own_nodup_at _ _ a m v _ _ _ z t ((y, u) :: x)); [exact Ho|done]. }
    rbind. eapply runs_it_eq; [done|exact Ho2|apply hdx_in| |].
    { simpl. replace ((a ++ (m, v) :: (y, u) :: x) ++ r) with ((a ++ [(m, v)]) ++ (y, u) :: x ++ r)
        by (by rewrite <-!(assoc_L (++))). apply node_in. }
    rewrite bool_decide_false.
    2: { destruct r as [|[z t] r]; simpl; [apply not_eq_sym; by eapply own_hdr_ne|]. apply not_eq_sym.
         eapply (own_nodup_at _ _ _ y u _ _ _ z t x); [exact Ho3|done]. }
    eapply (runs_transfer_back w al hdr a [(m, v)] ((y, u) :: x) r R); done.
  Qed.

  (** splice of a range *)
  Lemma runs_splice_range_nil w al ls hv hf pos first (Q : _ -> W -> Prop) :
    heap_is w hv hf -> lists_own al ls hv -> first ∈ list_addrs ls ->
    Q tt w -> runs (lst_splice_range cf pos first first) w Q.
  Proof.
    intros Hh Ho Hf HQ. unfold lst_splice_range. rbind. eapply runs_it_eq; [done..|].
    rewrite bool_decide_true by done. by apply runs_ret.
  Qed.
  Lemma runs_splice_range_other w al h1 l r h2 a m b R hv hf (Q : _ -> W -> Prop) :
    heap_is w hv hf -> lists_own al ((h1, l ++ r) :: (h2, a ++ m ++ b) :: R) hv ->
    relinked al ((h1, l ++ m ++ r) :: (h2, a ++ b) :: R) hf w tt Q ->
    runs (lst_splice_range cf (hdx r.*1 h1) (hdx (m ++ b).*1 h2) (hdx b.*1 h2)) w Q.
  Proof.
    intros Hh Ho HQ. assert (Ho2 : lists_own al ((h2, a ++ m ++ b) :: (h1, l ++ r) :: R) hv).
    { eapply own_perm; [|done]. apply perm_swap. }
    destruct m as [|[x v] m].
    - simpl. eapply runs_splice_range_nil; [done|exact Ho2|apply hdx_in|].
      rewrite <-(heap_is_self _ _ _ Hh). apply HQ; [done|]. by rewrite (heap_is_self _ _ _ Hh).
    - unfold lst_splice_range. rbind. eapply runs_it_eq; [done|exact Ho2|apply hdx_in| |].
      { rewrite (assoc_L (++)). apply hdx_in. }
      rewrite bool_decide_false.
      2: { destruct b as [|[z t] b]; simpl; [by eapply own_hdr_ne|].
           eapply (own_nodup_at _ _ a x v _ _ _ z t m); [exact Ho2|done]. }
      eapply (runs_transfer_other w al h1 l r h2 a ((x, v) :: m) b R); done.
  Qed.
  Lemma runs_splice_range_front w al hdr l x m b R hv hf (Q : _ -> W -> Prop) :
    heap_is w hv hf -> lists_own al ((hdr, l ++ x ++ m ++ b) :: R) hv -> x <> [] ->
    relinked al ((hdr, l ++ m ++ x ++ b) :: R) hf w tt Q ->
    runs (lst_splice_range cf (hdx x.*1 hdr) (hdx (m ++ b).*1 hdr) (hdx b.*1 hdr)) w Q.
  Proof.
    intros Hh Ho Hx HQ. pose proof Ho as Ho2. rewrite !(assoc_L (++)) in Ho2.
    destruct m as [|[y v] m].
    - simpl. eapply runs_splice_range_nil; [done|exact Ho2|apply hdx_in|].
      rewrite <-(heap_is_self _ _ _ Hh). apply HQ; [done|]. by rewrite (heap_is_self _ _ _ Hh).
    - assert (Ho3 : lists_own al ((hdr, (l ++ x) ++ (y, v) :: m ++ b) :: R) hv) by (by rewrite <-!(assoc_L (++))).
      unfold lst_splice_range. rbind. eapply runs_it_eq; [done|exact Ho2| |apply hdx_in|].
      { rewrite <-!(assoc_L (++)). rewrite (assoc_L (++) l). apply hdx_in. }
      rewrite bool_decide_false.
      2: { destruct b as [|[z t] b]; simpl; [by eapply own_hdr_ne|].
           eapply (own_nodup_at _ _ _ y v _ _ _ z t m); [exact Ho3|done]. }
      eapply (runs_transfer_front w al hdr l x ((y, v) :: m) b R); done.
  Qed.
  Lemma runs_splice_range_back w al hdr a m x r R hv hf (Q : _ -> W -> Prop) :
    heap_is w hv hf -> lists_own al ((hdr, a ++ m ++ x ++ r) :: R) hv -> x <> [] ->
    relinked al ((hdr, a ++ x ++ m ++ r) :: R) hf w tt Q ->
    runs (lst_splice_range cf (hdx r.*1 hdr) (hdx (m ++ x).*1 hdr) (hdx x.*1 hdr)) w Q.
  Proof.
    intros Hh Ho Hx HQ. destruct x as [|[z t] x]; [done|].
    pose proof Ho as Ho2. rewrite (assoc_L (++)) in Ho2.
    destruct m as [|[y v] m].
    - simpl. rewrite app_nil_r in Ho2. eapply runs_splice_range_nil; [done|exact Ho2|apply node_in|].
      rewrite <-(heap_is_self _ _ _ Hh). apply HQ; [done|]. by rewrite (heap_is_self _ _ _ Hh).
    - unfold lst_splice_range. rbind. eapply runs_it_eq; [done|exact Ho|apply node_in| |].
      { rewrite (assoc_L (++)). apply node_in. }
      rewrite bool_decide_false by (by eapply (own_nodup_at _ _ a y v _ _ _ z t m)).
      eapply (runs_transfer_back w al hdr a ((y, v) :: m) ((z, t) :: x) r R); done.
  Qed.

  (** ** Move *)

  Lemma runs_lst_move_ctor w al hdr xs R hv hf al0 (Q : _ -> W -> Prop) :
    heap_is w hv hf -> lists_own al ((hdr, xs) :: R) hv ->
    (forall a, w_heap w !! a = None -> relinked al ((a, xs) :: (hdr, []) :: R) hf w (Lst al0 a) Q) ->
    runs (lst_move_ctor cf (Lst al0 hdr)) w Q.
  Proof.
    intros Hh Ho HQ. unfold lst_move_ctor. rbind. eapply runs_lst_new; [done..|]. intros a hv1 Ha Ho1 Hh1.
    rbind. eapply (runs_lst_swap _ al a [] hdr xs); [done..|]. intros hv2 Ho2 Hh2. apply runs_ret.
    by apply HQ.
  Qed.
  Lemma runs_lst_move_assign w al h1 x1 h2 x2 R hv hf al2 (Q : _ -> W -> Prop) :
    heap_is w hv hf -> lists_own al ((h1, x1) :: (h2, x2) :: R) hv ->
    relinked al ((h1, x2) :: (h2, []) :: R) hf w tt Q ->
    runs (lst_move_assign cf (Lst al h1) (Lst al2 h2)) w Q.
  Proof.
    intros Hh Ho HQ. unfold lst_move_assign. rbind. eapply runs_lst_move_ctor; [done..|]. intros a Ha hv1 Ho1 Hh1.
    rbind. eapply (runs_lst_swap _ al h1 [] h2 x2 ((a, x1) :: R)); [done|eapply own_perm; [|exact Ho1]; perm_solve|].
    intros hv2 Ho2 Hh2.
    eapply (runs_lst_destroy _ al a x1 ((h1, x2) :: (h2, []) :: R)); [exact Hh2|eapply own_perm; [|exact Ho2]; perm_solve|by left|].
    intros hv3 Ho3 Hh3. by apply HQ.
  Qed.
  Lemma runs_lst_move_assign_self w al h1 x1 R hv hf (Q : _ -> W -> Prop) :
    heap_is w hv hf -> lists_own al ((h1, x1) :: R) hv ->
    relinked al ((h1, []) :: R) hf w tt Q ->
    runs (lst_move_assign cf (Lst al h1) (Lst al h1)) w Q.
  Proof.
    intros Hh Ho HQ. unfold lst_move_assign. rbind. eapply runs_lst_move_ctor; [done..|]. intros a Ha hv1 Ho1 Hh1.
    rbind. unfold lst_swap. simpl.
    eapply (runs_swap_self _ al h1 [] ((a, x1) :: R)); [done|eapply own_perm; [|exact Ho1]; perm_solve|].
    intros hv2 Ho2 Hh2.
    eapply (runs_lst_destroy _ al a x1 ((h1, []) :: R)); [exact Hh2|eapply own_perm; [|exact Ho2]; perm_solve|by left|].
    intros hv3 Ho3 Hh3. by apply HQ.
  Qed.
End relink.
