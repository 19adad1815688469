(** * Trees that keep equal values: proofs *)
From Verif Require Export RbMultiSpec RbQuery.

Section multi.
  Context {V : Type} {L : limit} (cf : cfg V) (comp : V -> V -> bool).
  Notation H := (gmap addr (tcell V)).
  Notation W := (world (tcell V)).
  Notation E := (addr * V)%type.
  Implicit Types h hf : H.
  Implicit Types w : W.
  Implicit Types t s : tree V.
  Implicit Types n : nat.
  Implicit Types k : @ctx V.
  Implicit Types o : tset.
  Implicit Types xs : list E.
  Notation addrs t := (elems t).*1.

  (** [x] may stand in front of [y] *)
  Definition wk (x y : V) : bool := negb (comp y x).
  Notation sin := (sin wk).

  Lemma ascending_wk vs : ascending wk vs <-> lsorted comp vs.
  Proof.
    unfold ascending, lsorted, wk. split; intros Hx i j x y Hij Hi Hj.
    - apply negb_true_iff. by eapply Hx.
    - apply negb_true_iff. by eapply Hx.
  Qed.
  Lemma mset_own_set al hdr xs hv : mset_own comp al hdr xs hv <-> set_own wk al hdr xs hv.
  Proof. unfold mset_own, set_own. by rewrite ascending_wk. Qed.
  Lemma mset_is_set o xs hf w : mset_is comp o xs hf w <-> set_is wk o xs hf w.
  Proof. unfold mset_is, set_is. by setoid_rewrite mset_own_set. Qed.
  Lemma mset_is_sin o xs hf w : mset_is comp o xs hf w <-> exists t, sin o xs (w_heap w) hf t.
  Proof. by rewrite mset_is_set, set_is_sin. Qed.

  Context (Hswo : swo comp).

  Lemma wk_down_lower xs v : asc wk xs -> down (fun u => comp u v) xs.
  Proof.
    intros Ha X x Y -> Hx y Hy. apply asc_app in Ha as (_ & _ & Ha).
    specialize (Ha y x Hy). unfold wk in Ha. specialize (Ha ltac:(set_solver)). apply negb_true_iff in Ha.
    destruct Hswo as (_ & _ & Hs). destruct (Hs _ _ y.2 Hx) as [|]; [congruence|done].
  Qed.
  Lemma wk_down_upper xs v : asc wk xs -> down (fun u => negb (comp v u)) xs.
  Proof.
    intros Ha X x Y -> Hx y Hy. apply asc_app in Ha as (_ & _ & Ha).
    specialize (Ha y x Hy). unfold wk in Ha. specialize (Ha ltac:(set_solver)). apply negb_true_iff in Ha.
    apply negb_true_iff. apply negb_true_iff in Hx. destruct (comp v y.2) eqn:Ec; [|done].
    destruct Hswo as (_ & _ & Hs). destruct (Hs _ _ x.2 Ec); congruence.
  Qed.

  (** ** Finding the place *)

  Lemma down_left (p : V -> bool) k c a v l r :
    down p (elems (plug k (Node c a v l r))) -> p v = false -> (forall q, q ∈ cpost k -> p q.2 = false) ->
    forall q, q ∈ (a, v) :: elems r ++ cpost k -> p q.2 = false.
  Proof.
    rewrite elems_plug. simpl. intros Hd Hv Hpost q [->|[Hq|Hq]%elem_of_app]%elem_of_cons; [done| |auto].
    destruct (p q.2) eqn:Ep; [|done]. apply elem_of_list_split in Hq as (R1 & R2 & Hr).
    assert (p v = true) as Hcon; [|by rewrite Hv in Hcon].
    refine (Hd (cpre k ++ elems l ++ (a, v) :: R1) q (R2 ++ cpost k) _ Ep (a, v) _); [|set_solver].
    rewrite Hr. repeat (rewrite <-(assoc_L (++)); simpl). done.
  Qed.
  Lemma down_right (p : V -> bool) k c a v l r :
    down p (elems (plug k (Node c a v l r))) -> p v = true -> (forall q, q ∈ cpre k -> p q.2 = true) ->
    forall q, q ∈ cpre k ++ elems l ++ [(a, v)] -> p q.2 = true.
  Proof.
    rewrite elems_plug. simpl. intros Hd Hv Hpre q [Hq|[Hq|Hq]%elem_of_app]%elem_of_app; [auto| |by apply elem_of_list_singleton in Hq as ->].
    refine (Hd (cpre k ++ elems l) (a, v) (elems r ++ cpost k) _ Hv q _); [|set_solver].
    repeat (rewrite <-(assoc_L (++)); simpl). done.
  Qed.

  Lemma equal_pos_loop_spec al hdr lm rm n hf fuel k t kt kv w (Q : addr -> W -> Prop) :
    tin al hdr lm rm n (w_heap w) hf (plug k t) -> rd (w_heap w) kt kv -> height t < fuel ->
    down (fun u => negb (comp kv u)) (elems (plug k t)) ->
    (forall p, p ∈ cpre k -> negb (comp kv p.2) = true) -> (forall p, p ∈ cpost k -> negb (comp kv p.2) = false) ->
    (forall k', plug k' Leaf = plug k t ->
      (forall p, p ∈ cpre k' -> negb (comp kv p.2) = true) -> (forall p, p ∈ cpost k' -> negb (comp kv p.2) = false) ->
      Q (cpar hdr k') w) ->
    runs (equal_pos_loop comp fuel (root t) (cpar hdr k) kt) w Q.
  Proof.
    intros Ht Hk. revert k t Ht. induction fuel as [|fuel IH]; intros k t Ht Hf Hd Hpre Hpost HQ; [lia|].
    destruct t as [|c a v l r]; [apply runs_ret; by apply HQ|]. simpl in Hf. simpl root. simpl equal_pos_loop.
    pose proof (tin_node al hdr _ _ _ _ _ _ _ _ _ _ _ Ht) as Hx.
    rbind. apply (rd_reads _ _ kv); [done|]. rbind. eapply runs_tread_node; [exact Ht|].
    destruct (comp kv v) eqn:Ec; cbv iota.
    - rbind. eapply (runs_get_child al DL); [exact Hx|].
      eapply (IH (Frame DL c a v r k)); [exact Ht|lia|exact Hd|exact Hpre| |exact HQ].
      apply (down_left (fun u => negb (comp kv u)) _ c a v l r); [exact Hd|by rewrite Ec|done].
    - rbind. eapply (runs_get_child al DR); [exact Hx|].
      eapply (IH (Frame DR c a v l k)); [exact Ht|lia|exact Hd| |exact Hpost|exact HQ].
      apply (down_right (fun u => negb (comp kv u)) _ c a v l r); [exact Hd|by rewrite Ec|done].
  Qed.
  Lemma equal_lower_loop_spec al hdr lm rm n hf fuel k t kt kv w (Q : addr -> W -> Prop) :
    tin al hdr lm rm n (w_heap w) hf (plug k t) -> rd (w_heap w) kt kv -> height t < fuel ->
    down (fun u => comp u kv) (elems (plug k t)) ->
    (forall p, p ∈ cpre k -> comp p.2 kv = true) -> (forall p, p ∈ cpost k -> comp p.2 kv = false) ->
    (forall k', plug k' Leaf = plug k t ->
      (forall p, p ∈ cpre k' -> comp p.2 kv = true) -> (forall p, p ∈ cpost k' -> comp p.2 kv = false) ->
      Q (cpar hdr k') w) ->
    runs (equal_lower_loop comp fuel (root t) (cpar hdr k) kt) w Q.
  Proof.
    intros Ht Hk. revert k t Ht. induction fuel as [|fuel IH]; intros k t Ht Hf Hd Hpre Hpost HQ; [lia|].
    destruct t as [|c a v l r]; [apply runs_ret; by apply HQ|]. simpl in Hf. simpl root. simpl equal_lower_loop.
    pose proof (tin_node al hdr _ _ _ _ _ _ _ _ _ _ _ Ht) as Hx.
    rbind. eapply runs_tread_node; [exact Ht|]. rbind. apply (rd_reads _ _ kv); [done|].
    destruct (comp v kv) eqn:Ec; cbv beta iota delta [negb].
    - rbind. eapply (runs_get_child al DR); [exact Hx|].
      eapply (IH (Frame DR c a v l k)); [exact Ht|lia|exact Hd| |exact Hpost|exact HQ].
      apply (down_right (fun u => comp u kv) _ c a v l r); [exact Hd|by rewrite Ec|done].
    - rbind. eapply (runs_get_child al DL); [exact Hx|].
      eapply (IH (Frame DL c a v r k)); [exact Ht|lia|exact Hd|exact Hpre| |exact HQ].
      apply (down_left (fun u => comp u kv) _ c a v l r); [exact Hd|by rewrite Ec|done].
  Qed.

  (** the position [k] for the value [v] *)
  Definition mpos k (v : V) : Prop :=
    (forall p, p ∈ cpre k -> comp v p.2 = false) /\ (forall p, p ∈ cpost k -> comp p.2 v = false).
  Definition mupper k (v : V) : Prop :=
    (forall p, p ∈ cpre k -> comp v p.2 = false) /\ (forall p, p ∈ cpost k -> comp v p.2 = true).
  Definition mlower k (v : V) : Prop :=
    (forall p, p ∈ cpre k -> comp p.2 v = true) /\ (forall p, p ∈ cpost k -> comp p.2 v = false).
  Lemma mupper_mpos k v : mupper k v -> mpos k v.
  Proof. intros [H1 H2]. split; [done|]. intros p Hp. apply comp_asym; auto. Qed.
  Lemma mlower_mpos k v : mlower k v -> mpos k v.
  Proof. intros [H1 H2]. split; [|done]. intros p Hp. apply comp_asym; auto. Qed.

  Lemma equal_pos_spec o xs t hf kt kv w (Q : option addr * option addr -> W -> Prop) :
    sin o xs (w_heap w) hf t -> rd (w_heap w) kt kv ->
    (forall k, plug k Leaf = t -> mupper k kv -> Q (None, Some (cpar (t_hdr o) k)) w) ->
    runs (insert_equal_pos comp o kt) w Q.
  Proof.
    intros Hs Hk HQ. unfold insert_equal_pos, t_end. rbind. eapply runs_root; [by eapply sin_hdr|].
    rbind. apply runs_tree_fuel. pose proof (tree_height_fuel _ _ _ _ _ _ Hs) as Hf. destruct Hs as (Ht & He & Hrb & Ha). subst xs.
    rbind. eapply (equal_pos_loop_spec _ (t_hdr o) _ _ _ _ _ Top); [exact Ht|exact Hk|done|by apply wk_down_upper|set_solver|set_solver|].
    intros k Hp Hpre Hpost. apply runs_ret. apply HQ; [done|]. split; intros p Hin.
    - apply negb_true_iff. auto.
    - apply negb_false_iff. auto.
  Qed.

  (** ** Linking a node *)

  Lemma mlink_spec o xs k hf x cx v il w (Q : addr -> W -> Prop) :
    sin o xs (w_heap w) hf (plug k Leaf) -> mpos k v ->
    hf !! x = Some cx -> tn_body cx = TNode (t_alloc o) (Some v) -> il = goes_left k ->
    (forall h' t', sin o (cpre k ++ (x, v) :: cpost k) h' (delete x hf) t' -> Q x (set_heap h' w)) ->
    runs (do! insert_and_rebalance il x (cpar (t_hdr o) k) (t_hdr o) in
          let! n := get_count o in
          do! set_count o (S n) in
          ret x) w Q.
  Proof.
    intros (Ht & He & Hrb & Ha) [Hpre Hpost] Hx Hcx -> HQ. subst xs.
    rbind. eapply (insert_rebalance_spec (t_alloc o) (t_hdr o)); [exact Ht|done|exact Hx|exact Hcx| |].
    { by destruct k as [|[]]. }
    intros h' t' He' Ht' Hrb'.
    rbind. eapply runs_get_count; [exact (tin_hdr _ _ _ _ _ _ _ _ Ht')|].
    rbind. eapply runs_set_count; [exact (tin_hdr _ _ _ _ _ _ _ _ Ht')|]. apply runs_ret. unfold set_heap; simpl.
    apply (HQ _ t'). split_and!; [|done|done|].
    - rewrite <-He'. assert (length (elems t') = S (length (elems (plug k Leaf)))) as <-.
      { rewrite He', elems_plug, !app_length. simpl. lia. }
      by eapply tin_sethdr.
    - rewrite elems_plug in Ha. simpl in Ha. apply asc_app in Ha as (H1 & H2 & H3). apply asc_app. split_and!; [done| |].
      + split; [|done]. intros q Hq. unfold wk. simpl. by rewrite Hpost.
      + intros p q Hp [->|Hq]%elem_of_cons; [|by apply H3]. unfold wk. simpl. by rewrite Hpre.
  Qed.

  Definition mside (xo : option addr) k (v : V) : Prop :=
    match k with
    | Top => True
    | Frame DL _ _ u _ _ => xo = None -> comp v u = true
    | Frame DR _ _ u _ _ => xo = None
    end.
  Lemma mupper_side k v : mupper k v -> mside None k v.
  Proof. intros [H1 H2]. destruct k as [|[] c a u s k]; simpl in *; [done| |done]. intros _. apply (H2 (a, u)). set_solver. Qed.

  Lemma parent_read o xs d c a u s k h hf (w : W) (Q : V -> W -> Prop) :
    sin o xs (w_heap w) hf (plug (Frame d c a u s k) Leaf) -> Q u w -> runs (tread a) w Q.
  Proof.
    intros (Ht & _) HQ. simpl in Ht.
    assert (exists l r, nodeD d c a u Leaf s = Node c a u l r) as (l & r & Hnode) by (destruct d; simpl; eauto).
    rewrite Hnode in Ht. by eapply runs_tread_node.
  Qed.
  Lemma parent_top o xs k h hf : sin o xs h hf (plug k Leaf) -> cpar (t_hdr o) k = t_hdr o -> k = Top.
  Proof.
    intros (Ht & _) Hx. destruct k as [|d c a u s k]; [done|]. exfalso. pose proof (tin_nodup _ _ _ _ _ _ _ _ Ht) as Hn.
    apply NoDup_cons in Hn as [Hn _]. apply Hn. rewrite addrs_plug. rewrite <-Hx. simpl addrs.
    pose proof (cpar_in (t_hdr o) d c a u s k). set_solver.
  Qed.

  Lemma mside_spec o xs k hf xo v w (get : M (tcell V) V) (Q : bool -> W -> Prop) :
    sin o xs (w_heap w) hf (plug k Leaf) -> mpos k v -> mside xo k v ->
    (forall Q' : V -> W -> Prop, Q' v w -> runs get w Q') ->
    Q (goes_left k) w ->
    runs (if decide (xo <> None \/ cpar (t_hdr o) k = t_end o) then ret true else
          let! kz := get in
          let! kp := tread (cpar (t_hdr o) k) in
          ret (comp kz kp)) w Q.
  Proof.
    intros Hs [Hpre Hpost] Hsd Hget HQ. unfold t_end.
    destruct (decide _) as [[Hx|Hx]|Hn].
    - assert (goes_left k = true) as Hg by (by destruct k as [|[]]). rewrite Hg in HQ. by apply runs_ret.
    - apply (parent_top _ _ _ _ _ Hs) in Hx as ->. by apply runs_ret.
    - destruct k as [|d c a u s k]; [exfalso; apply Hn; by right|]. simpl cpar.
      assert (xo = None) as -> by (destruct xo; [exfalso; apply Hn; by left|done]).
      rbind. apply Hget. rbind. eapply parent_read; [exact (w_heap w)|exact Hs|]. apply runs_ret.
      assert (comp v u = goes_left (Frame d c a u s k)) as ->; [|done]. destruct d; simpl.
      + by apply Hsd.
      + apply (Hpre (a, u)). simpl. set_solver.
  Qed.
  Lemma mside_lower_spec o xs k hf v w (get : M (tcell V) V) (Q : bool -> W -> Prop) :
    sin o xs (w_heap w) hf (plug k Leaf) -> mlower k v ->
    (forall Q' : V -> W -> Prop, Q' v w -> runs get w Q') ->
    Q (goes_left k) w ->
    runs (if decide (cpar (t_hdr o) k = t_end o) then ret true else
          let! kp := tread (cpar (t_hdr o) k) in
          let! kz := get in
          ret (negb (comp kp kz))) w Q.
  Proof.
    intros Hs [Hpre Hpost] Hget HQ. unfold t_end.
    destruct (decide _) as [Hx|Hn].
    - apply (parent_top _ _ _ _ _ Hs) in Hx as ->. by apply runs_ret.
    - destruct k as [|d c a u s k]; [done|]. simpl cpar.
      rbind. eapply parent_read; [exact (w_heap w)|exact Hs|]. rbind. apply Hget. apply runs_ret.
      assert (negb (comp u v) = goes_left (Frame d c a u s k)) as ->; [|done]. destruct d; simpl.
      + apply negb_true_iff. apply (Hpost (a, u)). simpl. set_solver.
      + apply negb_false_iff. apply (Hpre (a, u)). simpl. set_solver.
  Qed.

  (** creating a node for [x] in front of the link *)
  Lemma mmake_spec o xs k hf x v il w (Q : addr -> W -> Prop) :
    sin o xs (w_heap w) hf (plug k Leaf) -> mpos k v -> rd (w_heap w) x v -> w_err w = None -> il = goes_left k ->
    (forall a h' t' orc, w_heap w !! a = None -> sin o (cpre k ++ (a, v) :: cpost k) h' hf t' ->
       Q a (World h' orc None (S (w_allocs w)) (S (w_ctors w)))) ->
    (forall w' e, w_heap w' = w_heap w -> w_err w' = Some e -> tnode_error cf e -> Q (t_end o) w') ->
    runs (let! l := tcreate_node cf o x in
          let! e := has_err in
          if (e : bool) then ret (t_end o) else
          let! l := deref l in
          do! insert_and_rebalance il l (cpar (t_hdr o) k) (t_hdr o) in
          let! n := get_count o in
          do! set_count o (S n) in
          ret l) w Q.
  Proof.
    intros Hs Hpos Hx He Hil Hok Hfail. rbind. eapply create_spec; [done|exact Hx| |].
    - intros a orc Ha. rbind. apply runs_has_err. simpl. rbind. apply runs_deref.
      destruct (created wk _ _ _ _ _ _ v Hs Ha) as (Hs' & Hfa & _).
      eapply (mlink_spec o xs k (<[a := fresh_cell o v]> hf) a (fresh_cell o v) v); [exact Hs'|done|apply lookup_insert|done|done|].
      intros h' t' Hs''. rewrite delete_insert in Hs'' by done. unfold set_heap; simpl. by eapply Hok.
    - intros w' e Hw' He' Hne. rbind. apply runs_has_err. rewrite He'. apply runs_ret. by eapply Hfail.
  Qed.

  Lemma mm_insert_spec o xs k xo hf x v w (Q : addr -> W -> Prop) :
    sin o xs (w_heap w) hf (plug k Leaf) -> mpos k v -> mside xo k v -> rd (w_heap w) x v -> w_err w = None ->
    (forall a h' t' orc, w_heap w !! a = None -> sin o (cpre k ++ (a, v) :: cpost k) h' hf t' ->
       Q a (World h' orc None (S (w_allocs w)) (S (w_ctors w)))) ->
    (forall w' e, w_heap w' = w_heap w -> w_err w' = Some e -> tnode_error cf e -> Q (t_end o) w') ->
    runs (m_insert cf comp o xo (cpar (t_hdr o) k) x) w Q.
  Proof.
    intros Hs Hpos Hsd Hx He Hok Hfail. unfold m_insert. rbind.
    eapply mside_spec; [exact Hs|done|done|by apply rd_reads|]. by eapply mmake_spec.
  Qed.
  Lemma mm_insert_lower_spec o xs k hf x v w (Q : addr -> W -> Prop) :
    sin o xs (w_heap w) hf (plug k Leaf) -> mlower k v -> rd (w_heap w) x v -> w_err w = None ->
    (forall a h' t' orc, w_heap w !! a = None -> sin o (cpre k ++ (a, v) :: cpost k) h' hf t' ->
       Q a (World h' orc None (S (w_allocs w)) (S (w_ctors w)))) ->
    (forall w' e, w_heap w' = w_heap w -> w_err w' = Some e -> tnode_error cf e -> Q (t_end o) w') ->
    runs (m_insert_lower cf comp o (cpar (t_hdr o) k) x) w Q.
  Proof.
    intros Hs Hpos Hx He Hok Hfail. unfold m_insert_lower. rbind.
    eapply mside_lower_spec; [exact Hs|done|by apply rd_reads|]. eapply mmake_spec; try done. by apply mlower_mpos.
  Qed.
  Lemma node_read o xs k hf z cz v (w : W) (Q : V -> W -> Prop) :
    sin o xs (w_heap w) hf (plug k Leaf) -> hf !! z = Some cz -> tn_body cz = TNode (t_alloc o) (Some v) -> Q v w -> runs (tread z) w Q.
  Proof.
    intros (Ht & _) Hz Hcz HQ. eapply runs_tread; [|exact Hcz|exact HQ].
    rewrite (tin_out _ _ _ _ _ _ _ _ Ht); [done|]. intros Hin. apply (tin_none _ _ _ _ _ _ _ _ Ht) in Hin. congruence.
  Qed.
  Lemma mm_insert_node_spec o xs k xo hf z cz v w (Q : addr -> W -> Prop) :
    sin o xs (w_heap w) hf (plug k Leaf) -> mpos k v -> mside xo k v ->
    hf !! z = Some cz -> tn_body cz = TNode (t_alloc o) (Some v) ->
    (forall h' t', sin o (cpre k ++ (z, v) :: cpost k) h' (delete z hf) t' -> Q z (set_heap h' w)) ->
    runs (m_insert_node comp o xo (cpar (t_hdr o) k) z) w Q.
  Proof.
    intros Hs Hpos Hsd Hz Hcz HQ. unfold m_insert_node. rbind.
    eapply mside_spec; [exact Hs|done|done| |].
    { intros Q' HQ'. by eapply node_read. }
    by eapply mlink_spec.
  Qed.
  Lemma mm_insert_lower_node_spec o xs k hf z cz v w (Q : addr -> W -> Prop) :
    sin o xs (w_heap w) hf (plug k Leaf) -> mlower k v ->
    hf !! z = Some cz -> tn_body cz = TNode (t_alloc o) (Some v) ->
    (forall h' t', sin o (cpre k ++ (z, v) :: cpost k) h' (delete z hf) t' -> Q z (set_heap h' w)) ->
    runs (m_insert_lower_node comp o (cpar (t_hdr o) k) z) w Q.
  Proof.
    intros Hs Hpos Hz Hcz HQ. unfold m_insert_lower_node. rbind.
    eapply mside_lower_spec; [exact Hs|done| |].
    { intros Q' HQ'. by eapply node_read. }
    eapply mlink_spec; try done. by apply mlower_mpos.
  Qed.

  (** ** The operations without a hint *)

  Lemma insert_equal_spec o xs t hf x v w (Q : addr -> W -> Prop) :
    sin o xs (w_heap w) hf t -> rd (w_heap w) x v -> w_err w = None ->
    (forall a k h' t' orc, xs = cpre k ++ cpost k -> mupper k v -> w_heap w !! a = None ->
       sin o (cpre k ++ (a, v) :: cpost k) h' hf t' -> Q a (World h' orc None (S (w_allocs w)) (S (w_ctors w)))) ->
    (forall w' e, w_heap w' = w_heap w -> w_err w' = Some e -> tnode_error cf e -> Q (t_end o) w') ->
    runs (insert_equal cf comp o x) w Q.
  Proof.
    intros Hs Hx He Hok Hfail. unfold insert_equal. rbind. eapply equal_pos_spec; [exact Hs|exact Hx|].
    intros k Hk Hup. pose proof Hs as (_ & HE & _). rewrite <-Hk in Hs, HE. rewrite elems_plug in HE. simpl in HE.
    eapply mm_insert_spec; [exact Hs|by apply mupper_mpos|by apply mupper_side|exact Hx|done| |done].
    intros a h' t' orc Ha Hs'. eapply (Hok a k); [by rewrite HE|done|done|exact Hs'].
  Qed.
  Lemma insert_equal_lower_spec o xs t hf x v w (Q : addr -> W -> Prop) :
    sin o xs (w_heap w) hf t -> rd (w_heap w) x v -> w_err w = None ->
    (forall a k h' t' orc, xs = cpre k ++ cpost k -> mlower k v -> w_heap w !! a = None ->
       sin o (cpre k ++ (a, v) :: cpost k) h' hf t' -> Q a (World h' orc None (S (w_allocs w)) (S (w_ctors w)))) ->
    (forall w' e, w_heap w' = w_heap w -> w_err w' = Some e -> tnode_error cf e -> Q (t_end o) w') ->
    runs (insert_equal_lower cf comp o x) w Q.
  Proof.
    intros Hs Hx He Hok Hfail. unfold insert_equal_lower, t_end. rbind. eapply runs_root; [by eapply sin_hdr|].
    rbind. apply runs_tree_fuel. pose proof (tree_height_fuel _ _ _ _ _ _ Hs) as Hf. pose proof Hs as (Ht & HE & Hrb & Ha).
    rbind. eapply (equal_lower_loop_spec _ (t_hdr o) _ _ _ _ _ Top); [exact Ht|exact Hx|done|simpl; rewrite HE; by apply wk_down_lower|set_solver|set_solver|].
    simpl plug. intros k Hk Hpre Hpost. rewrite <-Hk in Hs, HE. rewrite elems_plug in HE. simpl in HE.
    eapply mm_insert_lower_spec; [exact Hs|done|exact Hx|done| |done].
    intros a h' t' orc Hfa Hs'. eapply (Hok a k); [by rewrite HE|done|done|exact Hs'].
  Qed.
  Lemma insert_equal_lower_node_spec o xs t hf z cz v w (Q : addr -> W -> Prop) :
    sin o xs (w_heap w) hf t -> hf !! z = Some cz -> tn_body cz = TNode (t_alloc o) (Some v) ->
    (forall k h' t', xs = cpre k ++ cpost k -> mlower k v ->
       sin o (cpre k ++ (z, v) :: cpost k) h' (delete z hf) t' -> Q z (set_heap h' w)) ->
    runs (insert_equal_lower_node comp o z) w Q.
  Proof.
    intros Hs Hz Hcz HQ. unfold insert_equal_lower_node, t_end. rbind. eapply runs_root; [by eapply sin_hdr|].
    rbind. apply runs_tree_fuel. pose proof (tree_height_fuel _ _ _ _ _ _ Hs) as Hf. pose proof Hs as (Ht & HE & Hrb & Ha).
    rbind. eapply (equal_lower_loop_spec _ (t_hdr o) _ _ _ _ _ Top _ _ v); [exact Ht| |done|simpl; rewrite HE; by apply wk_down_lower|set_solver|set_solver|].
    { simpl. exists cz, (t_alloc o). split; [|done].
      rewrite (tin_out _ _ _ _ _ _ _ _ Ht); [done|]. intros Hin. apply (tin_none _ _ _ _ _ _ _ _ Ht) in Hin. congruence. }
    simpl plug. intros k Hk Hpre Hpost. rewrite <-Hk in Hs, HE. rewrite elems_plug in HE. simpl in HE.
    eapply mm_insert_lower_node_spec; [exact Hs|done|exact Hz|done|].
    intros h' t' Hs'. eapply (HQ k); [by rewrite HE|done|exact Hs'].
  Qed.
  Lemma emplace_equal_spec o xs t hf x v w (Q : addr -> W -> Prop) :
    sin o xs (w_heap w) hf t -> rd (w_heap w) x v -> w_err w = None ->
    (forall a k h' t' orc, xs = cpre k ++ cpost k -> mupper k v -> w_heap w !! a = None ->
       sin o (cpre k ++ (a, v) :: cpost k) h' hf t' -> Q a (World h' orc None (S (w_allocs w)) (S (w_ctors w)))) ->
    (forall w' e, w_heap w' = w_heap w -> w_err w' = Some e -> tnode_error cf e -> Q (t_end o) w') ->
    runs (emplace_equal cf comp o x) w Q.
  Proof.
    intros Hs Hx He Hok Hfail. unfold emplace_equal. rbind. eapply create_spec; [done|exact Hx| |].
    - intros a orc Ha. rbind. apply runs_has_err. simpl. rbind. apply runs_deref.
      destruct (created wk _ _ _ _ _ _ v Hs Ha) as (Hs' & Hfa & Hrd).
      rbind. eapply equal_pos_spec; [exact Hs'|exact Hrd|]. intros k Hk Hup.
      pose proof Hs as (_ & HE & _). rewrite <-Hk in Hs', HE. rewrite elems_plug in HE. simpl in HE.
      eapply mm_insert_node_spec; [exact Hs'|by apply mupper_mpos|by apply mupper_side|apply lookup_insert|done|].
      intros h' t' Hs''. rewrite delete_insert in Hs'' by done. unfold set_heap; simpl. eapply (Hok a k); [by rewrite HE|done|done|exact Hs''].
    - intros w' e Hw' He' Hne. rbind. apply runs_has_err. rewrite He'. apply runs_ret. by eapply Hfail.
  Qed.

  (** ** Insertion with a hint *)

  Lemma mpos_at xs i v :
    asc wk xs ->
    (forall p, last (take i xs) = Some p -> comp v p.2 = false) ->
    (forall p, head (drop i xs) = Some p -> comp p.2 v = false) ->
    (forall p, p ∈ take i xs -> comp v p.2 = false) /\ (forall p, p ∈ drop i xs -> comp p.2 v = false).
  Proof.
    intros Ha Hl Hh. pose proof (wk_down_upper xs v Ha) as Hu. pose proof (wk_down_lower xs v Ha) as Hd. split.
    - destruct (take i xs) as [|q X _] eqn:E using rev_ind; [set_solver|]. specialize (Hl q). rewrite last_snoc in Hl.
      intros p [Hp|Hp]%elem_of_app; [|apply elem_of_list_singleton in Hp as ->; auto].
      apply negb_true_iff. apply (Hu X q (drop i xs)); [|by rewrite Hl|done].
      by rewrite <-(take_drop i xs) at 1; rewrite E, <-(assoc_L (++)).
    - destruct (drop i xs) as [|q X] eqn:E; [set_solver|]. specialize (Hh q eq_refl).
      intros p [->|Hp]%elem_of_cons; [done|]. destruct (comp p.2 v) eqn:Ep; [|done].
      apply elem_of_list_split in Hp as (X1 & X2 & ->).
      rewrite <-Hh. symmetry. apply (Hd (take i xs ++ q :: X1) p X2); [|done|set_solver].
      by rewrite <-(take_drop i xs) at 1; rewrite E, <-(assoc_L (++)).
  Qed.

  (** no place for [v] is closer to [i] than [j] *)
  Definition nearest (v : V) xs (i j : nat) : Prop := forall j', fits comp v xs j' -> apart i j <= apart i j'.
  Lemma nearest_self v xs i : nearest v xs i i.
  Proof. intros j' _. unfold apart. lia. Qed.
  Lemma nearest_upper v xs i j :
    j <= i -> (forall p, p ∈ drop j xs -> comp v p.2 = true) -> nearest v xs i j.
  Proof.
    intros Hj Hu j' (Hl & Hp & _). destruct (decide (j' <= j)); [unfold apart; lia|]. exfalso.
    assert (j < length xs) as [p Hlk]%lookup_lt_is_Some by lia.
    assert (p ∈ drop j xs) as Hd.
    { apply elem_of_list_lookup. exists 0. rewrite lookup_drop. by rewrite Nat.add_0_r. }
    assert (p ∈ take j' xs) as Ht. { apply elem_of_list_lookup. exists j. by rewrite lookup_take by lia. }
    specialize (Hu _ Hd). specialize (Hp _ Ht). congruence.
  Qed.
  Lemma nearest_lower v xs i j :
    i <= j -> j <= length xs -> (forall p, p ∈ take j xs -> comp p.2 v = true) -> nearest v xs i j.
  Proof.
    intros Hj Hjl Hu j' (Hl & _ & Hp). destruct (decide (j <= j')); [unfold apart; lia|]. exfalso.
    assert (j' < length xs) as [p Hlk]%lookup_lt_is_Some by lia.
    assert (p ∈ drop j' xs) as Hd.
    { apply elem_of_list_lookup. exists 0. rewrite lookup_drop. by rewrite Nat.add_0_r. }
    assert (p ∈ take j xs) as Ht. { apply elem_of_list_lookup. exists j'. by rewrite lookup_take by lia. }
    specialize (Hu _ Ht). specialize (Hp _ Hd). congruence.
  Qed.
  Lemma ctx_split k xs : elems (plug k Leaf) = xs -> cpre k = take (length (cpre k)) xs /\ cpost k = drop (length (cpre k)) xs.
  Proof. rewrite elems_plug. simpl. intros <-. by rewrite take_app, drop_app. Qed.
  Lemma ctx_length k xs : elems (plug k Leaf) = xs -> length (cpre k) <= length xs.
  Proof. rewrite elems_plug. simpl. intros <-. rewrite app_length. lia. Qed.
  (** an element greater than [v] stands behind the place, one smaller than [v] in front *)
  Lemma place_le k xs i p (P : E -> bool) :
    elems (plug k Leaf) = xs -> (forall q, q ∈ cpre k -> P q = false) -> xs !! i = Some p -> P p = true -> length (cpre k) <= i.
  Proof.
    intros He HP Hi Hp. destruct (decide (length (cpre k) <= i)); [done|]. destruct (ctx_split _ _ He) as [Hs _].
    rewrite HP in Hp; [done|]. rewrite Hs. apply elem_of_list_lookup. exists i. rewrite lookup_take by lia. done.
  Qed.
  Lemma place_gt k xs i p (P : E -> bool) :
    elems (plug k Leaf) = xs -> (forall q, q ∈ cpost k -> P q = false) -> xs !! i = Some p -> P p = true -> i < length (cpre k).
  Proof.
    intros He HP Hi Hp. destruct (decide (i < length (cpre k))); [done|]. destruct (ctx_split _ _ He) as [_ Hs].
    rewrite HP in Hp; [done|]. rewrite Hs. apply elem_of_list_lookup. exists (i - length (cpre k)).
    rewrite lookup_drop. by replace (_ + _) with i by lia.
  Qed.

  Lemma hint_equal_pos_spec o xs t hf i kt kv w (Q : option addr * option addr -> W -> Prop) :
    sin o xs (w_heap w) hf t -> rd (w_heap w) kt kv -> i <= length xs ->
    (forall xo k, plug k Leaf = t -> mpos k kv -> mside xo k kv -> nearest kv xs i (length (cpre k)) ->
       Q (xo, Some (cpar (t_hdr o) k)) w) ->
    ((forall k, plug k Leaf = t -> mlower k kv -> nearest kv xs i (length (cpre k))) -> Q (None, None) w) ->
    runs (insert_hint_equal_pos comp o (tpos (t_hdr o) xs i) kt) w Q.
  Proof.
    intros Hs Hk Hile Hnew Hlow. pose proof Hs as (Ht & HE & Hrb & Ha). subst xs. set (xs := elems t) in *.
    assert ((forall k, plug k Leaf = t -> mupper k kv -> length (cpre k) <= i) -> runs (insert_equal_pos comp o kt) w Q) as Hfull.
    { intros Hle. eapply equal_pos_spec; [exact Hs|exact Hk|]. intros k Hp Hup. apply Hnew; [done|by apply mupper_mpos|by apply mupper_side|].
      apply nearest_upper; [by apply Hle|]. destruct (ctx_split k xs) as [_ <-]; [by rewrite Hp|]. apply Hup. }
    assert (forall j k xo, plug k Leaf = t -> cpre k = take j xs -> cpost k = drop j xs -> j <= length xs ->
      (forall p, last (take j xs) = Some p -> comp kv p.2 = false) ->
      (forall p, head (drop j xs) = Some p -> comp p.2 kv = false) ->
      nearest kv xs i j ->
      goes_left k = bool_decide (xo <> None) -> Q (xo, Some (cpar (t_hdr o) k)) w) as Hat.
    { intros j k xo Hp Hpre Hpost Hj Hl Hh Hnear Hd.
      destruct (mpos_at xs j kv Ha Hl Hh) as [H1 H2]. apply Hnew; [done|split; [by rewrite Hpre|by rewrite Hpost]| |].
      - destruct k as [|[] c a u s k]; simpl in *; [done| |].
        + intros ->. by rewrite bool_decide_false in Hd by auto.
        + destruct xo; [|done]. by rewrite bool_decide_true in Hd.
      - rewrite Hpre, take_length_le by done. done. }
    unfold insert_hint_equal_pos, t_end.
    destruct (decide (tpos (t_hdr o) xs i = t_hdr o)) as [Hend|Hend].
    - (* at the end *)
      rbind. unfold t_size. eapply runs_get_count; [exact (tin_hdr _ _ _ _ _ _ _ _ Ht)|].
      destruct (decide (0 < length xs)) as [Hlen|Hlen].
      2: { rbind. apply runs_ret. apply Hfull. intros k Hp _. pose proof (ctx_length k xs ltac:(by rewrite Hp)). lia. }
      assert (length xs <= i) as Hlei.
      { destruct (decide (length xs <= i)); [done|]. exfalso. by eapply (tpos_ne wk o xs _ hf t i); [|lia|]. }
      rbind. rbind. eapply (runs_get_rm (t_hdr o)); [exact (tin_hdr _ _ _ _ _ _ _ _ Ht)|].
      rbind. apply runs_deref.
      assert (t <> Leaf) as Hne. { intros ->. simpl in Hlen. lia. }
      destruct (max_split t Hne) as (k & c & a & v & l & Hp & Hpost).
      assert (xs = (cpre k ++ elems l) ++ [(a, v)]) as HE.
      { unfold xs. rewrite Hp, elems_plug, Hpost. simpl. by rewrite app_nil_r, (assoc_L (++)). }
      assert (last_of (t_hdr o) xs = a) as Hlast by (by rewrite HE, last_snoc'). rewrite Hlast.
      rbind. apply (rd_reads _ _ kv); [done|].
      rbind. pose proof Ht as Ht'. rewrite Hp in Ht'. eapply runs_tread_node; [exact Ht'|]. apply runs_ret. destruct (comp kv v) eqn:Ec; simpl negb; cbv iota.
      { apply Hfull. intros k' Hp' _. pose proof (ctx_length k' xs ltac:(by rewrite Hp')). lia. }
      rbind. eapply (runs_get_rm (t_hdr o)); [exact (tin_hdr _ _ _ _ _ _ _ _ Ht)|]. rewrite Hlast. apply runs_ret.
      apply (Hat (length xs) (Frame DR c a v l k)); simpl.
      + done.
      + rewrite take_ge by lia. by rewrite HE, (assoc_L (++)).
      + by rewrite drop_ge by lia.
      + lia.
      + rewrite take_ge by lia. rewrite HE, last_snoc. by intros ? [= <-].
      + by rewrite drop_ge by lia.
      + replace i with (length xs) by lia. apply nearest_self.
      + done.
    - (* at an element *)
      assert (i < length xs) as Hi. { destruct (decide (length xs <= i)); [|lia]. by rewrite tpos_end in Hend. }
      apply lookup_lt_is_Some in Hi as [[pos vi] Hi]. rewrite (tpos_some _ _ _ _ _ Hi) in *.
      destruct (find_ctx t i pos vi Hi) as (kp & c & l & r & Hp & Hpre & Hpost). fold xs in Hpre, Hpost.
      pose proof Ht as Htp. rewrite Hp in Htp.
      pose proof (tin_node _ _ _ _ _ _ _ _ _ _ _ _ _ Htp) as Hcell.
      assert (NoDup (xs.*1)) as Hnd.
      { pose proof (tin_nodup _ _ _ _ _ _ _ _ Ht) as Hn. apply NoDup_cons in Hn as [_ Hn]. exact Hn. }
      pose proof (lookup_lt_Some _ _ _ Hi) as Hlt.
      assert (drop i xs = (pos, vi) :: drop (S i) xs) as Hdrop by (by apply drop_S).
      rbind. eapply runs_tread_node; [exact Htp|]. rbind. apply (rd_reads _ _ kv); [done|].
      destruct (comp vi kv) eqn:Ec; simpl negb; cbv iota; [|].
      + (* behind pos *)
        rbind. eapply (runs_get_rm (t_hdr o)); [exact (tin_hdr _ _ _ _ _ _ _ _ Ht)|].
        assert (take (S i) xs = take i xs ++ [(pos, vi)]) as Htk by (by apply take_S_r).
        assert (nearest kv xs i (S i)) as Hnear.
        { apply nearest_lower; [lia|lia|]. intros p Hp'. rewrite Htk in Hp'. apply elem_of_app in Hp' as [Hp'|Hp'].
          - apply (wk_down_lower xs kv Ha (take i xs) (pos, vi) (drop (S i) xs)); [|done|done].
            rewrite <-(take_drop i xs) at 1. by rewrite Hdrop.
          - by apply elem_of_list_singleton in Hp' as ->. }
        assert (forall k xo, plug k Leaf = t -> cpre k = take (S i) xs -> cpost k = drop (S i) xs ->
          (forall p, head (drop (S i) xs) = Some p -> comp p.2 kv = false) ->
          goes_left k = bool_decide (xo <> None) -> Q (xo, Some (cpar (t_hdr o) k)) w) as Hat'.
        { intros k xo ? ? ? ? ?. eapply (Hat (S i) k); [done..|lia| |done|exact Hnear|done]. rewrite Htk, last_snoc. intros ? [= <-]. by apply comp_asym. }
        clear Hat.
        assert (r = Leaf -> plug (Frame DR c pos vi l kp) Leaf = t /\ cpre (Frame DR c pos vi l kp) = take (S i) xs /\
           cpost (Frame DR c pos vi l kp) = drop (S i) xs) as Hright.
        { intros ->. simpl. split_and!; [done| |done]. rewrite Htk, <-Hpre. by rewrite (assoc_L (++)). }
        destruct (decide (Some (last_of (t_hdr o) xs) = Some pos)) as [[= Hlst]|Hlst].
        * rewrite Hlst. apply runs_ret.
          assert (drop (S i) xs = []) as Hnil.
          { rewrite <-(take_drop (S i) xs), Htk in Hnd, Hlst. destruct (drop (S i) xs) as [|[a0 v0] X _] eqn:EX using rev_ind; [done|].
            exfalso. rewrite (assoc_L (++)), last_snoc' in Hlst. subst a0.
            eapply (nodup_perm _ (pos :: pos :: (take i xs).*1 ++ X.*1)) in Hnd.
            - apply NoDup_cons in Hnd as [Hnd _]. apply Hnd. by left.
            - rewrite !fmap_app. csimpl. perm_solve. }
          assert (r = Leaf) as Hr.
          { rewrite Hnil in Hpost. apply app_eq_nil in Hpost as [Hl _]. destruct r as [|? ? ? ll lr]; [done|]. simpl in Hl. by destruct (elems ll). }
          destruct (Hright Hr) as (? & ? & ?). apply (Hat' (Frame DR c pos vi l kp)); [done..| |done]. by rewrite Hnil.
        * assert (S i < length xs) as Hi2.
          { destruct (decide (S i = length xs)) as [Heq|]; [|lia]. exfalso. apply Hlst. f_equal.
            rewrite <-(take_ge xs (S i)) by lia. by rewrite Htk, last_snoc'. }
          apply lookup_lt_is_Some in Hi2 as [[af va] Hb].
          rbind. pose proof (runs_inc wk o xs hf t i w) as Hinc. rewrite (tpos_some _ _ _ _ _ Hi), (tpos_some _ _ _ _ _ Hb) in Hinc.
          eapply Hinc; [split_and!; done|lia|]. clear Hinc.
          destruct (find_ctx t (S i) af va Hb) as (ka & ca & la & ra & Hpa & _).
          pose proof Ht as Hta. rewrite Hpa in Hta. rbind. eapply runs_tread_node; [exact Hta|]. clear ka ca la ra Hpa Hta.
          rbind. apply (rd_reads _ _ kv); [done|].
          destruct (comp va kv) eqn:Eca; simpl negb; cbv iota.
          { apply runs_ret. apply Hlow. intros k' Hp' [Hlo1 Hlo2]. pose proof (ctx_length k' xs ltac:(by rewrite Hp')).
            assert (S i < length (cpre k')) as Hgt.
            { eapply (place_gt k' xs (S i) (af, va) (fun q => comp q.2 kv)); [by rewrite Hp'|done|done|done]. }
            apply nearest_lower; [lia|done|]. destruct (ctx_split k' xs) as [<- _]; [by rewrite Hp'|done]. }
          assert (drop (S i) xs = (af, va) :: drop (S (S i)) xs) as Hdrop2 by (by apply drop_S).
          rbind. eapply (runs_get_child _ DR); [exact Hcell|].
          destruct r as [|cr zr vr rl rr] eqn:Er; simpl root; cbv iota; apply runs_ret.
          -- destruct (Hright eq_refl) as (? & ? & ?). apply (Hat' (Frame DR c pos vi l kp)); [done..| |done].
             rewrite Hdrop2. by intros ? [= <-].
          -- rewrite <-Er in *. destruct (min_split r) as (km & cm & m & vm & rm' & Hm & Hkm); [by rewrite Er|].
             assert ((m, vm) = (af, va)) as [= -> ->].
             { rewrite Hdrop2, Hm, elems_plug, Hkm in Hpost. simpl in Hpost. congruence. }
             apply (Hat' (Frame DL cm af va rm' (kapp km (Frame DR c pos vi l kp)))); simpl.
             ++ rewrite plug_kapp. simpl. by rewrite <-Hm, <-Hp.
             ++ rewrite cpre_kapp, Hkm. simpl. rewrite app_nil_r, Htk, <-Hpre. by rewrite (assoc_L (++)).
             ++ rewrite cpost_kapp. simpl. rewrite <-Hpost, Hm, elems_plug, Hkm. simpl. by rewrite (assoc_L (++)).
             ++ rewrite Hdrop2. by intros ? [= <-].
             ++ done.
      + (* before pos *)
        rbind. eapply (runs_get_lm (t_hdr o)); [exact (tin_hdr _ _ _ _ _ _ _ _ Ht)|].
        assert (forall k xo, plug k Leaf = t -> cpre k = take i xs -> cpost k = drop i xs ->
          (forall p, last (take i xs) = Some p -> comp kv p.2 = false) ->
          goes_left k = bool_decide (xo <> None) -> Q (xo, Some (cpar (t_hdr o) k)) w) as Hat'.
        { intros k xo ? ? ? ? ?. eapply (Hat i k); [done..| |apply nearest_self|done]. rewrite Hdrop. by intros ? [= <-]. }
        clear Hat.
        destruct (decide (Some (first_of (t_hdr o) xs) = Some pos)) as [[= Hfst]|Hfst].
        * rewrite Hfst. apply runs_ret.
          assert (i = 0) as ->.
          { rewrite <-(take_drop i xs), Hdrop in Hnd, Hfst. destruct (take i xs) as [|[a0 v0] X] eqn:EX.
            - destruct i; [done|]. destruct xs; [simpl in *; lia|done].
            - unfold first_of in Hfst. simpl in Hfst. subst a0. csimpl in Hnd. apply NoDup_cons in Hnd as [Hnd _].
              exfalso. apply Hnd. rewrite fmap_app. csimpl. set_solver. }
          simpl in Hpre. apply app_eq_nil in Hpre as [Hpre Hl].
          assert (l = Leaf) as ->. { destruct l as [|? ? ? ll lr]; [done|]. simpl in Hl. by destruct (elems ll). }
          apply (Hat' (Frame DL c pos vi r kp)); simpl; [done|done| |done|done]. rewrite Hdrop, <-Hpost. done.
        * destruct i as [|i'].
          { exfalso. apply Hfst. rewrite drop_0 in Hdrop. by rewrite Hdrop. }
          rbind.
          pose proof (runs_dec wk o xs hf t i' w) as Hdec. rewrite (tpos_some _ _ _ _ _ Hi) in Hdec.
          eapply Hdec; [split_and!; done|lia|]. clear Hdec.
          assert (i' < length xs) as Hi' by lia. apply lookup_lt_is_Some in Hi' as [[bf vb] Hb].
          rewrite (tpos_some _ _ _ _ _ Hb).
          destruct (find_ctx t i' bf vb Hb) as (kb & cb & lb & rb' & Hpb & Hpreb & Hpostb). fold xs in Hpreb, Hpostb.
          pose proof Ht as Htb. rewrite Hpb in Htb. pose proof (tin_node _ _ _ _ _ _ _ _ _ _ _ _ _ Htb) as Hcb.
          rbind. apply (rd_reads _ _ kv); [done|]. rbind. eapply runs_tread_node; [exact Htb|].
          destruct (comp kv vb) eqn:Ecb; simpl negb; cbv iota.
          { apply Hfull. intros k' Hp' [Hup _]. assert (length (cpre k') <= i'); [|lia].
            eapply (place_le k' xs i' (bf, vb) (fun q => comp kv q.2)); [by rewrite Hp'|done|done|done]. }
          assert (take (S i') xs = take i' xs ++ [(bf, vb)]) as Htk by (by apply take_S_r).
          rbind. eapply (runs_get_child _ DR); [exact Hcb|].
          destruct (root rb') as [rb0|] eqn:Erb; apply runs_ret.
          -- assert (l = Leaf) as ->.
             { destruct l as [|cl zl vl ll lr] eqn:El; [done|]. exfalso. rewrite <-El in *.
               destruct (max_split l) as (km & cm & m & vm & lm' & Hm & Hkm); [by rewrite El|].
               assert (m = bf) as ->.
               { rewrite Htk, Hm, elems_plug, Hkm in Hpre. simpl in Hpre.
                 rewrite app_nil_r, !(assoc_L (++)) in Hpre. apply app_inj_tail in Hpre as [_ Hpre]. congruence. }
               rewrite Hm in Hp.
               assert (t = plug (kapp km (Frame DL c pos vi r kp)) (Node cm bf vm lm' Leaf)) as Hp'.
               { rewrite plug_kapp. done. }
               pose proof Ht as Htm. rewrite Hp' in Htm. pose proof (tin_node _ _ _ _ _ _ _ _ _ _ _ _ _ Htm) as Hcm.
               rewrite Hcm in Hcb. apply (f_equal (fun x => x ≫= tn_right)) in Hcb. simpl in Hcb. congruence. }
             apply (Hat' (Frame DL c pos vi r kp)); simpl; [done| | | |done].
             ++ rewrite <-Hpre. simpl. by rewrite app_nil_r.
             ++ rewrite Hdrop, <-Hpost. done.
             ++ rewrite Htk, last_snoc. by intros ? [= <-].
          -- assert (rb' = Leaf) as -> by (by destruct rb').
             apply (Hat' (Frame DR cb bf vb lb kb)); simpl; [done| | | |done].
             ++ rewrite Htk, <-Hpreb. by rewrite (assoc_L (++)).
             ++ rewrite <-Hpostb. done.
             ++ rewrite Htk, last_snoc. by intros ? [= <-].
  Qed.

  Lemma nearest_of_lower o xs t h hf i v k :
    sin o xs h hf t -> (forall k, plug k Leaf = t -> mlower k v -> nearest v xs i (length (cpre k))) ->
    xs = cpre k ++ cpost k -> mlower k v -> nearest v xs i (length (cpre k)).
  Proof.
    intros (_ & He & _ & Ha) Hn Hxs [H1 H2].
    assert (exists k', plug k' Leaf = t /\ mlower k' v) as (k' & Hk' & Hlow).
    { subst xs. clear -Ha Hswo. pose proof (wk_down_lower _ v Ha) as Hd. clear Ha.
      assert (forall k s, down (fun u => comp u v) (elems (plug k s)) ->
        (forall p, p ∈ cpre k -> comp p.2 v = true) -> (forall p, p ∈ cpost k -> comp p.2 v = false) ->
        exists k', plug k' Leaf = plug k s /\ mlower k' v) as Hgo.
      { intros k s. revert k. induction s as [|c a u l IHl r IHr]; intros k Hd' Hpre Hpost; [by exists k|].
        destruct (comp u v) eqn:Ec.
        - apply (IHr (Frame DR c a u l k)); [done| |done]. by apply (down_right (fun u => comp u v) _ c a u l r).
        - apply (IHl (Frame DL c a u r k)); [done|done|]. by apply (down_left (fun u => comp u v) _ c a u l r). }
      apply (Hgo Top t); [done|set_solver|set_solver]. }
    specialize (Hn k' Hk' Hlow). destruct Hlow as [H3 H4].
    assert (length (cpre k') = length (cpre k)) as <-; [|done].
    assert (cpre k' ++ cpost k' = cpre k ++ cpost k) as Heq.
    { rewrite <-Hxs, <-He, <-Hk', elems_plug. done. }
    assert (forall X Y X' Y' : list E, X' ++ Y' = X ++ Y -> (forall p, p ∈ X -> comp p.2 v = true) -> (forall p, p ∈ Y' -> comp p.2 v = false) ->
      length X <= length X') as Hle.
    { clear. intros X Y X' Y' Heq H1 H2. destruct (decide (length X <= length X')); [done|]. exfalso.
      assert (length X' < length X) as [p Hp]%lookup_lt_is_Some by lia.
      assert (Y' !! 0 = Some p) as Hp'.
      { rewrite <-(Nat.sub_diag (length X')), <-lookup_app_r by lia. rewrite Heq. by apply lookup_app_l_Some. }
      apply elem_of_list_lookup_2 in Hp, Hp'. specialize (H1 _ Hp). specialize (H2 _ Hp'). congruence. }
    apply Nat.le_antisymm; [eapply (Hle _ (cpost k') _ (cpost k)); eauto|eapply (Hle _ (cpost k) _ (cpost k')); eauto].
  Qed.
  Lemma insert_equal_at_spec o xs t hf i x v w (Q : addr -> W -> Prop) :
    sin o xs (w_heap w) hf t -> rd (w_heap w) x v -> w_err w = None -> i <= length xs ->
    (forall a k h' t' orc, xs = cpre k ++ cpost k -> mpos k v -> nearest v xs i (length (cpre k)) -> w_heap w !! a = None ->
       sin o (cpre k ++ (a, v) :: cpost k) h' hf t' -> Q a (World h' orc None (S (w_allocs w)) (S (w_ctors w)))) ->
    (forall w' e, w_heap w' = w_heap w -> w_err w' = Some e -> tnode_error cf e -> Q (t_end o) w') ->
    runs (insert_equal_at cf comp o (tpos (t_hdr o) xs i) x) w Q.
  Proof.
    intros Hs Hx He Hi Hok Hfail. unfold insert_equal_at. rbind. pose proof Hs as (_ & HE & _).
    eapply hint_equal_pos_spec; [exact Hs|exact Hx|done| |].
    - intros xo k Hk Hpos Hsd Hn. rewrite <-Hk in Hs, HE. rewrite elems_plug in HE. simpl in HE.
      eapply mm_insert_spec; [exact Hs|done|done|exact Hx|done| |done].
      intros a h' t' orc Ha Hs'. eapply (Hok a k); [by rewrite HE|done|done|done|exact Hs'].
    - intros Hn. eapply insert_equal_lower_spec; [exact Hs|exact Hx|done| |done].
      intros a k h' t' orc Hxs Hlow Ha Hs'.
      eapply (Hok a k); [done|by apply mlower_mpos| |done|exact Hs'].
      by eapply nearest_of_lower.
  Qed.
  Lemma emplace_hint_equal_spec o xs t hf i x v w (Q : addr -> W -> Prop) :
    sin o xs (w_heap w) hf t -> rd (w_heap w) x v -> w_err w = None -> i <= length xs ->
    (forall a k h' t' orc, xs = cpre k ++ cpost k -> mpos k v -> nearest v xs i (length (cpre k)) -> w_heap w !! a = None ->
       sin o (cpre k ++ (a, v) :: cpost k) h' hf t' -> Q a (World h' orc None (S (w_allocs w)) (S (w_ctors w)))) ->
    (forall w' e, w_heap w' = w_heap w -> w_err w' = Some e -> tnode_error cf e -> Q (t_end o) w') ->
    runs (emplace_hint_equal cf comp o (tpos (t_hdr o) xs i) x) w Q.
  Proof.
    intros Hs Hx He Hi Hok Hfail. unfold emplace_hint_equal. rbind. eapply create_spec; [done|exact Hx| |].
    - intros a orc Ha. rbind. apply runs_has_err. simpl. rbind. apply runs_deref.
      destruct (created wk _ _ _ _ _ _ v Hs Ha) as (Hs' & Hfa & Hrd). pose proof Hs as (_ & HE & _).
      rbind. eapply hint_equal_pos_spec; [exact Hs'|exact Hrd|done| |].
      + intros xo k Hk Hpos Hsd Hn. rewrite <-Hk in Hs', HE. rewrite elems_plug in HE. simpl in HE.
        eapply mm_insert_node_spec; [exact Hs'|done|done|apply lookup_insert|done|].
        intros h' t' Hs''. rewrite delete_insert in Hs'' by done. unfold set_heap; simpl.
        eapply (Hok a k); [by rewrite HE|done|done|done|exact Hs''].
      + intros Hn. eapply insert_equal_lower_node_spec; [exact Hs'|apply lookup_insert|done|].
        intros k h' t' Hxs Hlow Hs''. rewrite delete_insert in Hs'' by done. unfold set_heap; simpl.
        eapply (Hok a k); [done|by apply mlower_mpos| |done|exact Hs''].
        by eapply nearest_of_lower.
    - intros w' e Hw' He' Hne. rbind. apply runs_has_err. rewrite He'. apply runs_ret. by eapply Hfail.
  Qed.

  (** ** Looking values up *)

  Lemma mequal_range_spec o xs t hf (k : targ V) v w (Q : addr * addr -> W -> Prop) :
    sin o xs (w_heap w) hf t -> rd (w_heap w) k v ->
    (forall i j, splits (fun u => comp u v) xs i -> splits (fun u => negb (comp v u)) xs j ->
       Q (tpos (t_hdr o) xs i, tpos (t_hdr o) xs j) w) ->
    runs (equal_range comp o k) w Q.
  Proof.
    intros Hs Hk HQ. unfold equal_range. rbind. eapply runs_root; [by eapply sin_hdr|].
    rbind. apply runs_tree_fuel. destruct Hs as (Ht & He & Hrb & Ha). subst xs.
    pose proof (wk_down_lower _ v Ha) as Hd. pose proof (wk_down_upper _ v Ha) as Hd'.
    eapply (equal_range_loop_spec comp (t_alloc o) (t_hdr o) _ _ _ _ _ Top); [exact Ht|by apply rd_reads|by eapply tin_fits|by eapply tin_fits|done|exact Hd|exact Hd'|].
    destruct (skip_splits _ _ Hd) as (i & -> & Hi). destruct (skip_splits _ _ Hd') as (j & -> & Hj).
    unfold t_end. rewrite <-!tpos_first. auto.
  Qed.
  Lemma mlower_bound_spec o xs t hf (k : targ V) v w (Q : addr -> W -> Prop) :
    sin o xs (w_heap w) hf t -> rd (w_heap w) k v ->
    (forall i, splits (fun u => comp u v) xs i -> Q (tpos (t_hdr o) xs i) w) ->
    runs (lower_bound comp o k) w Q.
  Proof.
    intros Hs Hk HQ. unfold lower_bound. rbind. eapply runs_root; [by eapply sin_hdr|].
    unfold m_lower_bound. rbind. apply runs_tree_fuel. destruct Hs as (Ht & He & Hrb & Ha). subst xs.
    pose proof (wk_down_lower _ v Ha) as Hd.
    eapply (lower_loop_spec comp (t_alloc o) (t_hdr o) _ _ _ _ _ Top); [exact Ht|by apply rd_reads| |exact Hd|].
    { by eapply tin_fits. }
    destruct (skip_splits _ _ Hd) as (i & -> & Hi). unfold t_end. rewrite <-tpos_first. auto.
  Qed.
  Lemma mupper_bound_spec o xs t hf (k : targ V) v w (Q : addr -> W -> Prop) :
    sin o xs (w_heap w) hf t -> rd (w_heap w) k v ->
    (forall i, splits (fun u => negb (comp v u)) xs i -> Q (tpos (t_hdr o) xs i) w) ->
    runs (upper_bound comp o k) w Q.
  Proof.
    intros Hs Hk HQ. unfold upper_bound. rbind. eapply runs_root; [by eapply sin_hdr|].
    unfold m_upper_bound. rbind. apply runs_tree_fuel. destruct Hs as (Ht & He & Hrb & Ha). subst xs.
    pose proof (wk_down_upper _ v Ha) as Hd.
    eapply (upper_loop_spec comp (t_alloc o) (t_hdr o) _ _ _ _ _ Top); [exact Ht|by apply rd_reads| |exact Hd|].
    { by eapply tin_fits. }
    destruct (skip_splits _ _ Hd) as (i & -> & Hi). unfold t_end. rewrite <-tpos_first. auto.
  Qed.
  Lemma msplits_le xs v i j :
    splits (fun u => comp u v) xs i -> splits (fun u => negb (comp v u)) xs j -> i <= j.
  Proof.
    intros [Hli Hi] [Hlj Hj]. destruct (decide (i <= j)) as [|Hn]; [done|]. exfalso.
    assert (exists y, xs !! j = Some y) as [[a u] Hy]. { apply lookup_lt_is_Some. lia. }
    pose proof (Hi _ _ _ Hy) as H1. rewrite bool_decide_true in H1 by lia.
    pose proof (Hj _ _ _ Hy) as H2. rewrite bool_decide_false in H2 by lia.
    apply comp_asym in H1; [|done]. by rewrite H1 in H2.
  Qed.
  Lemma mfind_spec o xs t hf (k : targ V) v i j w (Q : addr -> W -> Prop) :
    sin o xs (w_heap w) hf t -> rd (w_heap w) k v ->
    splits (fun u => comp u v) xs i -> splits (fun u => negb (comp v u)) xs j ->
    Q (if decide (i < j) then tpos (t_hdr o) xs i else t_end o) w ->
    runs (t_find comp o k) w Q.
  Proof.
    intros Hs Hk Hi Hj HQ. unfold t_find, t_end in *. rbind. eapply mlower_bound_spec; [exact Hs|exact Hk|].
    intros i' Hi'. assert (i' = i) as -> by (by eapply splits_inj). clear Hi'. pose proof Hs as (Ht & He & Hrb & Ha).
    destruct (decide (tpos (t_hdr o) xs i = t_hdr o)) as [Heq|Hne].
    - apply runs_ret. destruct (decide (i < j)) as [Hlt|]; [|done]. by rewrite Heq in HQ.
    - assert (exists a u, xs !! i = Some (a, u)) as (a & u & Hu).
      { destruct (xs !! i) as [[a u]|] eqn:Hx; [eauto|]. exfalso. apply Hne, tpos_end. by apply lookup_ge_None. }
      rewrite (tpos_some _ _ _ _ _ Hu) in HQ |- *. rbind. apply (rd_reads _ _ v); [done|].
      pose proof Hu as Hu'. rewrite <-He in Hu'. destruct (find_ctx t i a u Hu') as (kk & c & l & r & Hp & _). rewrite Hp in Ht.
      rbind. eapply runs_tread_node; [exact Ht|].
      pose proof (proj2 Hj _ _ _ Hu) as Hup. simpl in Hup.
      destruct (comp v u); simpl in Hup; apply runs_ret; symmetry in Hup.
      + apply bool_decide_eq_false in Hup. by rewrite decide_False in HQ.
      + apply bool_decide_eq_true in Hup. by rewrite decide_True in HQ.
  Qed.
  Lemma mcount_spec o xs t hf (k : targ V) v i j w (Q : nat -> W -> Prop) :
    sin o xs (w_heap w) hf t -> rd (w_heap w) k v ->
    splits (fun u => comp u v) xs i -> splits (fun u => negb (comp v u)) xs j ->
    Q (j - i) w -> runs (t_count comp o k) w Q.
  Proof.
    intros Hs Hk Hi Hj HQ. unfold t_count. rbind. eapply mequal_range_spec; [exact Hs|exact Hk|].
    intros i' j' Hi' Hj'. assert (i' = i) as -> by (by eapply splits_inj). assert (j' = j) as -> by (by eapply splits_inj).
    rbind. apply runs_cell_fuel. cbn [fst snd]. pose proof (msplits_le _ _ _ _ Hi Hj).
    assert (length xs < size (w_heap w)) as Hf.
    { destruct Hs as (Ht & He & _). pose proof (fuel_bound _ _ _ _ _ _ _ _ Ht). by rewrite He in *. }
    destruct Hj as [Hj _]. eapply distance_spec; [exact Hs|done|done|lia|done].
  Qed.
  Lemma merase_key_spec o xs t hf (k : targ V) v i j w (Q : nat -> W -> Prop) :
    sin o xs (w_heap w) hf t -> rd (w_heap w) k v ->
    splits (fun u => comp u v) xs i -> splits (fun u => negb (comp v u)) xs j ->
    (forall h' t', sin o (take i xs ++ drop j xs) h' hf t' -> Q (j - i) (set_heap h' w)) ->
    runs (t_erase_key cf comp o k) w Q.
  Proof.
    intros Hs Hk Hi Hj HQ. unfold t_erase_key. rbind. eapply mequal_range_spec; [exact Hs|exact Hk|].
    intros i' j' Hi' Hj'. assert (i' = i) as -> by (by eapply splits_inj). assert (j' = j) as -> by (by eapply splits_inj).
    rbind. eapply size_spec; [exact Hs|]. rbind. pose proof (msplits_le _ _ _ _ Hi Hj).
    destruct Hj as [Hj _]. eapply erase_range_spec; [exact Hs|done|done|]. intros h' t' Hs'.
    rbind. eapply size_spec; [exact Hs'|]. apply runs_ret.
    replace (length xs - length (take i xs ++ drop j xs)) with (j - i); [by eapply HQ|].
    rewrite app_length, take_length, drop_length. lia.
  Qed.

  (** where the range of equivalent elements lies *)
  Lemma msplits_ex xs v : asc wk xs ->
    exists i j, splits (fun u => comp u v) xs i /\ splits (fun u => negb (comp v u)) xs j.
  Proof.
    intros Ha. destruct (skip_splits _ _ (wk_down_lower _ v Ha)) as (i & _ & Hi).
    destruct (skip_splits _ _ (wk_down_upper _ v Ha)) as (j & _ & Hj). eauto.
  Qed.
  Lemma splits_below xs v i m u : splits (fun u => comp u v) xs i -> xs.*2 !! m = Some u -> comp u v = true <-> m < i.
  Proof.
    intros [_ Hi] Hm. rewrite list_lookup_fmap in Hm. destruct (xs !! m) as [[a u']|] eqn:Em; simplify_eq/=.
    rewrite (Hi m a u Em). by rewrite bool_decide_eq_true.
  Qed.
  Lemma splits_above xs v j m u : splits (fun u => negb (comp v u)) xs j -> xs.*2 !! m = Some u -> comp v u = true <-> j <= m.
  Proof.
    intros [_ Hj] Hm. rewrite list_lookup_fmap in Hm. destruct (xs !! m) as [[a u']|] eqn:Em; simplify_eq/=.
    specialize (Hj m a u Em). destruct (comp v u); simpl in Hj; symmetry in Hj;
      [apply bool_decide_eq_false in Hj|apply bool_decide_eq_true in Hj]; split; intros; try done; lia.
  Qed.
End multi.
