(** * Moving iterators *)
From Verif Require Export RbErase.

Section walk.
  Context {V : Type} {L : limit} (al : alloc_id) (hdr : addr).
  Notation H := (gmap addr (tcell V)).
  Notation W := (world (tcell V)).
  Implicit Types h hf : H.
  Implicit Types w : W.
  Implicit Types t s : tree V.
  Implicit Types n : nat.
  Implicit Types k : @ctx V.
  Notation tin := (tin al hdr).
  Notation tat := (tree_at al).
  Notation addrs t := (elems t).*1.
  Notation caddrs k := ((cpre k).*1 ++ (cpost k).*1).
  Notation tinE n h hf t := (tin (first_of hdr (elems t)) (last_of hdr (elems t)) n h hf t).

  (** A node of the tree and what is around it. *)
  Lemma find_ctx t i a v :
    elems t !! i = Some (a, v) ->
    exists k c l r, t = plug k (Node c a v l r) /\
      cpre k ++ elems l = take i (elems t) /\ elems r ++ cpost k = drop (S i) (elems t).
  Proof.
    revert i. induction t as [|c b u l IHl r IHr]; intros i Hi; [done|]. simpl in Hi.
    apply lookup_app_Some in Hi as [Hi|[Hle Hi]].
    - destruct (IHl _ Hi) as (k & c' & l' & r' & Heq & Hpre & Hpost).
      exists (kapp k (Frame DL c b u r Top)), c', l', r'. rewrite plug_kapp. simpl.
      assert (forall k', cpre (kapp k' (Frame DL c b u r Top)) = cpre k' /\
         cpost (kapp k' (Frame DL c b u r Top)) = cpost k' ++ (b, u) :: elems r) as Hk.
      { clear. induction k' as [|[] c1 a1 v1 s1 k1 [IH1 IH2]]; simpl; rewrite ?IH1, ?IH2, ?app_nil_r; [done|..].
        - split; [done|]. by rewrite <-(assoc_L (++)).
        - done. }
      destruct (Hk k) as [-> ->]. pose proof (lookup_lt_Some _ _ _ Hi). split_and!.
      + by rewrite Heq.
      + rewrite take_app_le by lia. done.
      + rewrite drop_app_le by lia. rewrite <-Hpost. by rewrite (assoc_L (++)).
    - destruct (i - length (elems l)) as [|j] eqn:Ej.
      + simpl in Hi. simplify_eq. exists Top, c, l, r. simpl. rewrite app_nil_r. assert (i = length (elems l)) as -> by lia.
        split_and!; [done|by rewrite take_app|].
        rewrite drop_app_ge by lia. by replace (S (length (elems l)) - length (elems l)) with 1 by lia.
      + simpl in Hi. destruct (IHr _ Hi) as (k & c' & l' & r' & Heq & Hpre & Hpost).
        exists (kapp k (Frame DR c b u l Top)), c', l', r'. rewrite plug_kapp. simpl.
        assert (forall k', cpost (kapp k' (Frame DR c b u l Top)) = cpost k' /\
           cpre (kapp k' (Frame DR c b u l Top)) = elems l ++ (b, u) :: cpre k') as Hk.
        { clear. induction k' as [|[] c1 a1 v1 s1 k1 [IH1 IH2]]; simpl; rewrite ?IH1, ?IH2, ?app_nil_r; [done|..].
          - done.
          - split; [done|]. by rewrite <-(assoc_L (++)). }
        destruct (Hk k) as [-> ->]. split_and!.
        * by rewrite Heq.
        * rewrite <-(assoc_L (++)). simpl. rewrite Hpre. rewrite take_app_ge by lia. rewrite Ej. done.
        * rewrite Hpost, drop_app_ge by lia. by replace (S i - length (elems l)) with (S (S j)) by lia.
  Qed.

  (** The next element *)
  Definition inc_tail (q : addr * addr) : M (tcell V) addr :=
    let! r := get_right q.1 in
    if decide (r <> Some q.2) then ret q.2 else ret q.1.

  Lemma right_child_in (r : tree V) x : root r = Some x -> x ∈ addrs r.
  Proof. destruct r as [|c a v l r]; [done|]. intros [= ->]. csimpl. rewrite fmap_app. csimpl. set_solver. Qed.

  Lemma runs_inc_S fuel x y w (Q : addr -> W -> Prop) :
    runs (let! r := get_right y in
          if decide (r = Some x) then
            let! p := parent_of y in let! q := inc_loop fuel y p in inc_tail q
          else inc_tail (x, y)) w Q ->
    runs (let! q := inc_loop (S fuel) x y in inc_tail q) w Q.
  Proof.
    intros (a & w' & Heq & HQ). exists a, w'. split; [|done]. rewrite <-Heq. simpl. unfold bind.
    destruct (get_right y w) as [r w1|]; [|done]. destruct (decide _); [|done]. by destruct (parent_of y w1).
  Qed.

  (** What the header records as the first and the last node does not matter. *)
  Lemma inc_loop_spec lm rm n hf fuel k c x v l r w (Q : addr -> W -> Prop) :
    S (depth k) < fuel -> tin lm rm n (w_heap w) hf (plug k (Node c x v l r)) ->
    Q (first_of hdr (cpost k)) w ->
    runs (let! q := inc_loop fuel x (cpar hdr k) in inc_tail q) w Q.
  Proof.
    revert fuel c x v l r. induction k as [|d c' y v' s k IH]; intros fuel c x v l r Hf Ht HQ.
    - destruct fuel as [|[|fuel]]; simpl in Hf; [lia..|]. simpl in Ht. apply runs_inc_S.
      pose proof (tin_nodup al hdr _ _ _ _ _ _ Ht) as Hn. csimpl in Hn. rewrite fmap_app in Hn. csimpl in Hn.
      pose proof (tin_hdr al hdr _ _ _ _ _ _ Ht) as Hh.
      pose proof (tin_node al hdr _ _ _ _ _ Top _ _ _ _ _ Ht) as Hx.
      assert (hdr ∉ addrs r) as N1.
      { intros ?; revert Hn; rewrite ?NoDup_cons, ?NoDup_app, ?NoDup_cons; set_solver. }
      simpl cpar. rbind. eapply (runs_get_rm hdr); [exact Hh|].
      assert (root r <> Some hdr) as Hrh. { intros Hr. apply right_child_in in Hr. done. }
      destruct (decide (rm = x)) as [->|Hne].
      + rewrite decide_True by done.
        rbind. unfold parent_of. rbind. eapply runs_root; [exact Hh|]. apply runs_deref.
        apply runs_inc_S. rbind. eapply (runs_get_child al DR); [exact Hx|]. rewrite decide_False by done.
        unfold inc_tail. simpl. rbind. eapply (runs_get_rm hdr); [exact Hh|].
        rewrite decide_False by (intros Hne; by apply Hne). by apply runs_ret.
      + rewrite decide_False by congruence. unfold inc_tail. simpl.
        rbind. eapply (runs_get_child al DR); [exact Hx|]. rewrite decide_True by done. by apply runs_ret.
    - destruct fuel as [|fuel]; [lia|]. simpl in Hf.
      pose proof (tin_node al hdr _ _ _ _ _ _ _ _ _ _ _ Ht) as Hx. simpl cpar in *.
      simpl plug in Ht. destruct d.
      + pose proof (tin_node al hdr _ _ _ _ _ _ _ _ _ _ _ Ht) as Hy.
        pose proof (tin_nodup al hdr _ _ _ _ _ _ Ht) as Hn. apply NoDup_cons in Hn as [_ Hn].
        eapply (nodup_perm _ (x :: y :: addrs r ++ addrs s ++ addrs l ++ caddrs k)) in Hn.
        2: { rewrite addrs_plug. csimpl. rewrite !fmap_app. csimpl. rewrite ?fmap_app. csimpl. perm_solve. }
        apply runs_inc_S. rbind. eapply (runs_get_child al DR); [exact Hy|].
        rewrite decide_False.
        2: { intros Heq. apply right_child_in in Heq. apply NoDup_cons in Hn as [Hn _]. apply Hn. set_solver. }
        unfold inc_tail. simpl. rbind. eapply (runs_get_child al DR); [exact Hx|].
        rewrite decide_True.
        2: { intros Heq. apply right_child_in in Heq. apply NoDup_cons in Hn as [_ Hn]. apply NoDup_cons in Hn as [Hn _]. apply Hn. set_solver. }
        apply runs_ret. exact HQ.
      + pose proof (tin_node al hdr _ _ _ _ _ _ _ _ _ _ _ Ht) as Hy.
        apply runs_inc_S. rbind. eapply (runs_get_child al DR); [exact Hy|].
        rewrite decide_True by done. rbind. eapply (runs_parent_of al DR). { exact Hy. }
        eapply IH; [lia|exact Ht|exact HQ].
  Qed.

  Lemma increment_spec_any lm rm n hf k c x v l r w (Q : addr -> W -> Prop) :
    tin lm rm n (w_heap w) hf (plug k (Node c x v l r)) -> height (plug k (Node c x v l r)) < rounds (size (w_heap w)) ->
    Q (first_of hdr (elems r ++ cpost k)) w ->
    runs (rb_increment x) w Q.
  Proof.
    intros Ht Hfit HQ. unfold rb_increment.
    pose proof (tin_node al hdr _ _ _ _ _ _ _ _ _ _ _ Ht) as Hx.
    pose proof (plug_height k (Node c x v l r)) as Hf. simpl in Hf.
    rbind. eapply (runs_get_child al DR); [exact Hx|]. rbind. apply runs_tree_fuel.
    destruct r as [|cr ar vr lr rr]; simpl root; cbv iota.
    - rbind. eapply (runs_parent_of al DR); [exact Hx|].
      eapply inc_loop_spec; [|exact Ht|exact HQ]. lia.
    - eapply (minimum_spec al hdr _ _ _ _ _ (Frame DR c x v l k)); [exact Ht| |].
      + simpl in Hf. lia.
      + rewrite first_app in HQ; [exact HQ|]. simpl. by destruct (elems lr).
  Qed.

  Lemma increment_spec n hf k c x v l r w (Q : addr -> W -> Prop) :
    tinE n (w_heap w) hf (plug k (Node c x v l r)) -> height (plug k (Node c x v l r)) < rounds (size (w_heap w)) ->
    Q (first_of hdr (elems r ++ cpost k)) w ->
    runs (rb_increment x) w Q.
  Proof. apply increment_spec_any. Qed.

  (** The previous element *)
  Lemma dec_loop_spec n hf fuel k c x v l r w (Q : addr -> W -> Prop) :
    depth k < fuel -> tinE n (w_heap w) hf (plug k (Node c x v l r)) ->
    cpre k <> [] ->
    Q (last_of hdr (cpre k)) w ->
    runs (dec_loop fuel x (cpar hdr k)) w Q.
  Proof.
    revert fuel c x v l r. induction k as [|d c' y v' s k IH]; intros fuel c x v l r Hf Ht Hne HQ; [done|].
    destruct fuel as [|fuel]; [lia|]. simpl in Hf. simpl plug in Ht. simpl.
    destruct d.
    - pose proof (tin_node al hdr _ _ _ _ _ _ _ _ _ _ _ Ht) as Hy.
      rbind. eapply (runs_get_child al DL); [exact Hy|]. rewrite decide_True by done.
      rbind. eapply (runs_parent_of al DL); [exact Hy|]. eapply IH; [lia|exact Ht|done|exact HQ].
    - pose proof (tin_node al hdr _ _ _ _ _ _ _ _ _ _ _ Ht) as Hy.
      pose proof (tin_nodup al hdr _ _ _ _ _ _ Ht) as Hn. apply NoDup_cons in Hn as [_ Hn].
      eapply (nodup_perm _ (x :: y :: addrs r ++ addrs s ++ addrs l ++ caddrs k)) in Hn.
      2: { rewrite addrs_plug. csimpl. rewrite !fmap_app. csimpl. rewrite ?fmap_app. csimpl. perm_solve. }
      rbind. eapply (runs_get_child al DL); [exact Hy|].
      rewrite decide_False.
      2: { intros Heq. apply right_child_in in Heq. apply NoDup_cons in Hn as [Hn _]. apply Hn. set_solver. }
      apply runs_ret. simpl in HQ. rewrite (assoc_L (++)), last_snoc' in HQ. exact HQ.
  Qed.

  Lemma decrement_spec n hf k c x v l r w (Q : addr -> W -> Prop) :
    tinE n (w_heap w) hf (plug k (Node c x v l r)) -> rb (plug k (Node c x v l r)) ->
    cpre k ++ elems l <> [] ->
    Q (last_of hdr (cpre k ++ elems l)) w ->
    runs (rb_decrement x) w Q.
  Proof.
    intros Ht Hrb Hne HQ. unfold rb_decrement.
    pose proof (tin_node al hdr _ _ _ _ _ _ _ _ _ _ _ Ht) as Hx.
    pose proof (tin_fits al hdr _ _ _ _ _ _ Ht Hrb) as Hfit.
    pose proof (plug_height k (Node c x v l r)) as Hf. simpl in Hf.
    rbind. eapply (runs_get_color al DL); [exact Hx|]. rbind.
    assert (runs (if decide (c = Red) then
                  let! p := parent_of x in
                  let! pp := get_parent p in
                  ret (bool_decide (pp = Some x))
                else ret false) w (fun b w' => b = false /\ w' = w)) as Hh.
    { destruct (decide (c = Red)) as [->|Hc]; [|by apply runs_ret].
      destruct k as [|d c' y v' s k]; [by destruct Hrb as [Hc _]|].
      rbind. eapply (runs_parent_of al DL); [exact Hx|]. simpl cpar.
      rewrite <-(nodeD_flip d) in Ht || idtac.
      pose proof (tin_ctx al hdr _ _ _ _ _ _ _ Ht) as Hctx. destruct Hctx as [_ (Hy & _)].
      rbind. eapply (runs_get_parent al d); [exact Hy|]. apply runs_ret. split; [|done].
      apply bool_decide_eq_false. intros [= Heq].
      pose proof (tin_nodup al hdr _ _ _ _ _ _ Ht) as Hn.
      rewrite addrs_plug in Hn. csimpl in Hn. rewrite fmap_app in Hn. csimpl in Hn.
      eapply (nodup_perm _ (x :: (hdr :: caddrs k) ++ (y :: addrs l ++ addrs r ++ addrs s))) in Hn.
      - apply NoDup_cons in Hn as [Hn _]. apply Hn. pose proof (cpar_mem hdr k) as Hin. rewrite Heq in Hin. set_solver.
      - destruct d; simpl; rewrite ?fmap_app; csimpl; rewrite ?fmap_app; csimpl; perm_solve. }
    eapply runs_mono; [exact Hh|]. cbv beta. intros ? ? [-> ->].
    rbind. eapply (runs_get_child al DL); [exact Hx|]. rbind. apply runs_tree_fuel.
    destruct l as [|cl zl vl ll lr]; simpl root; cbv iota.
    - rbind. eapply (runs_parent_of al DR); [exact Hx|]. simpl in Hne, HQ. rewrite app_nil_r in *.
      eapply dec_loop_spec; [|exact Ht|done|exact HQ]. lia.
    - eapply (maximum_spec al hdr _ _ _ _ _ (Frame DL c x v r k)); [exact Ht| |].
      + simpl in Hf. lia.
      + rewrite last_app' in HQ; [exact HQ|]. simpl. by destruct (elems ll).
  Qed.

  Lemma decrement_end_spec n hf t w (Q : addr -> W -> Prop) :
    tinE n (w_heap w) hf t -> t <> Leaf ->
    Q (last_of hdr (elems t)) w -> runs (rb_decrement hdr) w Q.
  Proof.
    intros Ht Hne HQ. unfold rb_decrement. destruct t as [|c x v l r]; [done|].
    pose proof (tin_hdr al hdr _ _ _ _ _ _ Ht) as Hh.
    pose proof (tin_node al hdr _ _ _ _ _ Top _ _ _ _ _ Ht) as Hx. simpl in Hx.
    rbind. eapply runs_get_field; [exact Hh|done|]. rewrite decide_True by done.
    rbind. rbind. unfold parent_of. rbind. eapply runs_root; [exact Hh|]. apply runs_deref.
    rbind. eapply (runs_get_parent al DL); [exact Hx|]. apply runs_ret. rewrite bool_decide_true by done.
    rbind. eapply (runs_get_rm hdr); [exact Hh|]. apply runs_deref. done.
  Qed.
End walk.
