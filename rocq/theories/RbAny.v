(** * A tree whose comparison function may be anything: proofs *)
From Verif Require Export RbAnySpec RbMulti.

Section any.
  Context {V : Type} {L : limit} (cf : cfg V) (comp : V -> V -> bool).
  Notation H := (gmap addr (tcell V)).
  Notation W := (world (tcell V)).
  Notation E := (addr * V)%type.
  Implicit Types h hf : H.
  Implicit Types w : W.
  Implicit Types t s : tree V.
  Implicit Types n : nat.
  Implicit Types k : @ctx V.
  Implicit Types o : tset.
  Implicit Types xs : list E.
  Notation addrs t := (elems t).*1.

  (** the order in which nothing is smaller than anything *)
  Definition never (x y : V) : bool := false.
  Notation sin := (sin (wk never)).

  Lemma never_swo : swo never.
  Proof. by split_and!. Qed.
  Lemma tree_is_mset o xs hf w : tree_is o xs hf w <-> mset_is never o xs hf w.
  Proof.
    unfold tree_is, mset_is, mset_own. split; intros (hv & Ho & Hh); exists hv; (split; [|done]); [split; [|done]; by intros i j x y|by destruct Ho].
  Qed.
  Lemma tree_is_sin o xs hf w : tree_is o xs hf w <-> exists t, sin o xs (w_heap w) hf t.
  Proof. by rewrite tree_is_mset, mset_is_sin. Qed.
  Lemma never_pos k v : mpos never k v.
  Proof. by split. Qed.

  (** the comparison with the parent agrees with the side *)
  Definition side_is k (v : V) : Prop :=
    match k with Top => True | Frame d _ _ u _ _ => comp v u = goes_left k end.
  Definition side_lower k (v : V) : Prop :=
    match k with Top => True | Frame d _ _ u _ _ => negb (comp u v) = goes_left k end.

  Lemma unique_pos_any al hdr lm rm n hf fuel k t kt kv w (Q : addr * bool -> W -> Prop) :
    tin al hdr lm rm n (w_heap w) hf (plug k t) -> rd (w_heap w) kt kv -> height t < fuel -> side_is k kv ->
    (forall k', plug k' Leaf = plug k t -> side_is k' kv -> Q (cpar hdr k', goes_left k') w) ->
    runs (unique_pos_loop comp fuel (root t) (cpar hdr k) (goes_left k) kt) w Q.
  Proof.
    intros Ht Hk. revert k t Ht. induction fuel as [|fuel IH]; intros k t Ht Hf Hsd HQ; [lia|].
    destruct t as [|c a v l r]; [apply runs_ret; by apply HQ|]. simpl in Hf. simpl root. simpl unique_pos_loop.
    pose proof (tin_node al hdr _ _ _ _ _ _ _ _ _ _ _ Ht) as Hx.
    rbind. apply (rd_reads _ _ kv); [done|]. rbind. eapply runs_tread_node; [exact Ht|].
    destruct (comp kv v) eqn:E; cbv iota.
    - rbind. eapply (runs_get_child al DL); [exact Hx|]. eapply (IH (Frame DL c a v r k)); [exact Ht|lia|done|exact HQ].
    - rbind. eapply (runs_get_child al DR); [exact Hx|]. eapply (IH (Frame DR c a v l k)); [exact Ht|lia|done|exact HQ].
  Qed.
  Lemma equal_pos_any al hdr lm rm n hf fuel k t kt kv w (Q : addr -> W -> Prop) :
    tin al hdr lm rm n (w_heap w) hf (plug k t) -> rd (w_heap w) kt kv -> height t < fuel -> side_is k kv ->
    (forall k', plug k' Leaf = plug k t -> side_is k' kv -> Q (cpar hdr k') w) ->
    runs (equal_pos_loop comp fuel (root t) (cpar hdr k) kt) w Q.
  Proof.
    intros Ht Hk. revert k t Ht. induction fuel as [|fuel IH]; intros k t Ht Hf Hsd HQ; [lia|].
    destruct t as [|c a v l r]; [apply runs_ret; by apply HQ|]. simpl in Hf. simpl root. simpl equal_pos_loop.
    pose proof (tin_node al hdr _ _ _ _ _ _ _ _ _ _ _ Ht) as Hx.
    rbind. apply (rd_reads _ _ kv); [done|]. rbind. eapply runs_tread_node; [exact Ht|].
    destruct (comp kv v) eqn:E; cbv iota.
    - rbind. eapply (runs_get_child al DL); [exact Hx|]. eapply (IH (Frame DL c a v r k)); [exact Ht|lia|done|exact HQ].
    - rbind. eapply (runs_get_child al DR); [exact Hx|]. eapply (IH (Frame DR c a v l k)); [exact Ht|lia|done|exact HQ].
  Qed.
  Lemma equal_lower_any al hdr lm rm n hf fuel k t kt kv w (Q : addr -> W -> Prop) :
    tin al hdr lm rm n (w_heap w) hf (plug k t) -> rd (w_heap w) kt kv -> height t < fuel -> side_lower k kv ->
    (forall k', plug k' Leaf = plug k t -> side_lower k' kv -> Q (cpar hdr k') w) ->
    runs (equal_lower_loop comp fuel (root t) (cpar hdr k) kt) w Q.
  Proof.
    intros Ht Hk. revert k t Ht. induction fuel as [|fuel IH]; intros k t Ht Hf Hsd HQ; [lia|].
    destruct t as [|c a v l r]; [apply runs_ret; by apply HQ|]. simpl in Hf. simpl root. simpl equal_lower_loop.
    pose proof (tin_node al hdr _ _ _ _ _ _ _ _ _ _ _ Ht) as Hx.
    rbind. eapply runs_tread_node; [exact Ht|]. rbind. apply (rd_reads _ _ kv); [done|].
    destruct (negb (comp v kv)) eqn:E; cbv iota.
    - rbind. eapply (runs_get_child al DL); [exact Hx|]. eapply (IH (Frame DL c a v r k)); [exact Ht|lia|done|exact HQ].
    - rbind. eapply (runs_get_child al DR); [exact Hx|]. eapply (IH (Frame DR c a v l k)); [exact Ht|lia|done|exact HQ].
  Qed.

  Lemma tread_spec o xs t hf i a (v : V) w (Q : V -> W -> Prop) :
    sin o xs (w_heap w) hf t -> xs !! i = Some (a, v) -> Q v w -> runs (tread a) w Q.
  Proof.
    intros (Ht & He & _) Hi HQ. rewrite <-He in Hi. destruct (find_ctx t i a v Hi) as (k & c & l & r & Hp & _).
    rewrite Hp in Ht. by eapply runs_tread_node.
  Qed.
  Lemma unique_find_any o xs t hf kt kv w (Q : option addr * option addr -> W -> Prop) :
    sin o xs (w_heap w) hf t -> rd (w_heap w) kt kv ->
    (forall k, plug k Leaf = t -> side_is k kv -> Q (None, Some (cpar (t_hdr o) k)) w) ->
    (forall i j v, xs !! i = Some (j, v) -> Q (Some j, None) w) ->
    runs (insert_unique_pos comp o kt) w Q.
  Proof.
    intros Hs Hk Hnew Hold. unfold insert_unique_pos, t_end. set (hdr := t_hdr o).
    rbind. eapply runs_root; [by eapply sin_hdr|]. rbind. apply runs_tree_fuel.
    pose proof (tree_height_fuel _ _ _ _ _ _ Hs) as Hf. pose proof (sin_nodup _ _ _ _ _ _ Hs) as Hnd.
    pose proof Hs as (Ht & HE & Hrb & _).
    rbind. eapply (unique_pos_any _ hdr _ _ _ _ _ Top t kt kv); [exact Ht|done|done|done|].
    simpl plug. intros k Hplug Hsd. simpl fst. simpl snd. rbind. eapply begin_spec; [exact Hs|].
    assert (xs = cpre k ++ cpost k) as Hxs. { rewrite <-HE, <-Hplug, elems_plug. done. }
    rewrite Hxs, fmap_app in Hnd.
    destruct (goes_left k && bool_decide (cpar hdr k = tpos (t_hdr o) xs 0)) eqn:Eb; [apply runs_ret; by apply Hnew|].
    assert (exists X j v, cpre k = X ++ [(j, v)]) as (X & j & v & HX).
    { destruct (cpre k) as [|[j v] X _] eqn:Ep using rev_ind; [|eauto]. exfalso.
      assert (goes_left k = true) as Eg.
      { destruct k as [|[] c a v s k]; [done..|]. apply (f_equal length) in Ep. simpl in Ep. rewrite !app_length in Ep. simpl in Ep. lia. }
      rewrite Eg in Eb. simpl in Eb. apply bool_decide_eq_false in Eb. apply Eb.
      rewrite tpos_first, drop_0, Hxs. symmetry. by apply cpre_nil_first. }
    assert (forall Q' : addr -> W -> Prop, Q' j w ->
      runs (if goes_left k then rb_decrement (cpar hdr k) else ret (cpar hdr k)) w Q') as Hj.
    { intros Q' HQ'. destruct (goes_left k) eqn:Eg.
      - destruct k as [|[] c a u s k]; [by destruct X| |done]. simpl in HX, Hplug |- *. rewrite <-HE, <-Hplug in Ht. rewrite <-Hplug in Hrb.
        eapply decrement_spec; [exact Ht|done| |]; simpl elems; rewrite app_nil_r; [by rewrite HX; destruct X|].
        by rewrite HX, last_snoc'.
      - apply runs_ret. rewrite <-cpre_dec; [by rewrite HX, last_snoc'|done|]. intros ->. done. }
    rbind. apply Hj. clear Hj.
    assert (xs !! length X = Some (j, v)) as Hi.
    { rewrite Hxs, HX, <-(assoc_L (++)). simpl. by rewrite list_lookup_middle. }
    rbind. eapply tread_spec; [exact Hs|exact Hi|]. rbind. apply (rd_reads _ _ kv); [done|].
    destruct (comp v kv); apply runs_ret; [by apply Hnew|by eapply Hold].
  Qed.

  Lemma side_any o xs k hf v w (get : M (tcell V) V) (Q : bool -> W -> Prop) :
    sin o xs (w_heap w) hf (plug k Leaf) -> side_is k v ->
    (forall Q' : V -> W -> Prop, Q' v w -> runs get w Q') -> Q (goes_left k) w ->
    runs (if decide ((None : option addr) <> None \/ cpar (t_hdr o) k = t_end o) then ret true else
          let! kz := get in
          let! kp := tread (cpar (t_hdr o) k) in
          ret (comp kz kp)) w Q.
  Proof.
    intros Hs Hsd Hget HQ. unfold t_end. destruct (decide _) as [[Hx|Hx]|Hn]; [done| |].
    - eapply parent_top in Hx; [|apply never_swo|exact Hs]. subst k. by apply runs_ret.
    - destruct k as [|d c a u s k]; [exfalso; apply Hn; by right|]. simpl cpar.
      rbind. apply Hget. rbind. eapply parent_read; [exact (w_heap w)|exact Hs|]. apply runs_ret. simpl in Hsd. by rewrite Hsd.
  Qed.
  Lemma side_lower_any o xs k hf v w (get : M (tcell V) V) (Q : bool -> W -> Prop) :
    sin o xs (w_heap w) hf (plug k Leaf) -> side_lower k v ->
    (forall Q' : V -> W -> Prop, Q' v w -> runs get w Q') -> Q (goes_left k) w ->
    runs (if decide (cpar (t_hdr o) k = t_end o) then ret true else
          let! kp := tread (cpar (t_hdr o) k) in
          let! kz := get in
          ret (negb (comp kp kz))) w Q.
  Proof.
    intros Hs Hsd Hget HQ. unfold t_end. destruct (decide _) as [Hx|Hn].
    - eapply parent_top in Hx; [|apply never_swo|exact Hs]. subst k. by apply runs_ret.
    - destruct k as [|d c a u s k]; [done|]. simpl cpar.
      rbind. eapply parent_read; [exact (w_heap w)|exact Hs|]. rbind. apply Hget. apply runs_ret. simpl in Hsd. by rewrite Hsd.
  Qed.

  Lemma one_more_ctx k (p : E) xs : xs = cpre k ++ cpost k -> one_more p xs (cpre k ++ p :: cpost k).
  Proof. intros ->. exists (length (cpre k)). rewrite app_length, take_app, drop_app. split; [lia|done]. Qed.
  Lemma sin_ctx o xs h hf k : sin o xs h hf (plug k Leaf) -> xs = cpre k ++ cpost k.
  Proof. intros (_ & HE & _). by rewrite <-HE, elems_plug. Qed.

  (** ** Insertion *)

  Lemma insert_unique_any o xs t hf x v w (Q : addr * bool -> W -> Prop) :
    sin o xs (w_heap w) hf t -> rd (w_heap w) x v -> w_err w = None ->
    (forall a ys h' t' orc, one_more (a, v) xs ys -> w_heap w !! a = None -> sin o ys h' hf t' ->
       Q (a, true) (World h' orc None (S (w_allocs w)) (S (w_ctors w)))) ->
    (forall i a u, xs !! i = Some (a, u) -> Q (a, false) w) ->
    (forall w' e, w_heap w' = w_heap w -> w_err w' = Some e -> tnode_error cf e -> Q (t_end o, true) w') ->
    runs (insert_unique cf comp o x) w Q.
  Proof.
    intros Hs Hx He Hok Hold Hfail. unfold insert_unique. rbind. eapply unique_find_any; [exact Hs|exact Hx| |].
    - intros k Hk Hsd. rewrite <-Hk in Hs. rbind. unfold m_insert. rbind.
      eapply side_any; [exact Hs|exact Hsd|by apply rd_reads|].
      eapply (mmake_spec cf never o xs k); [exact Hs|apply never_pos|exact Hx|done|done| |].
      + intros a h' t' orc Ha Hs'. apply runs_ret. eapply Hok; [|done|exact Hs']. apply one_more_ctx. by eapply sin_ctx.
      + intros w' e H1 H2 H3. apply runs_ret. by eapply Hfail.
    - intros i j u Hi. rbind. apply runs_deref. apply runs_ret. by eapply Hold.
  Qed.
  Lemma emplace_unique_any o xs t hf x v w (Q : addr * bool -> W -> Prop) :
    sin o xs (w_heap w) hf t -> rd (w_heap w) x v -> w_err w = None ->
    (forall a ys h' t' orc, one_more (a, v) xs ys -> w_heap w !! a = None -> sin o ys h' hf t' ->
       Q (a, true) (World h' orc None (S (w_allocs w)) (S (w_ctors w)))) ->
    (forall i a u orc, xs !! i = Some (a, u) -> Q (a, false) (World (w_heap w) orc None (S (w_allocs w)) (S (w_ctors w)))) ->
    (forall w' e, w_heap w' = w_heap w -> w_err w' = Some e -> tnode_error cf e -> Q (t_end o, false) w') ->
    runs (emplace_unique cf comp o x) w Q.
  Proof.
    intros Hs Hx He Hok Hold Hfail. unfold emplace_unique. rbind. eapply create_spec; [done|exact Hx| |].
    - intros a orc Ha. rbind. apply runs_has_err. simpl. rbind. apply runs_deref.
      destruct (created _ _ _ _ _ _ _ v Hs Ha) as (Hs' & Hfa & Hrd).
      rbind. eapply unique_find_any; [exact Hs'|exact Hrd| |].
      + intros k Hk Hsd. rewrite <-Hk in Hs'. rbind. unfold m_insert_node. rbind.
        eapply side_any; [exact Hs'|exact Hsd| |].
        { intros Q' HQ'. eapply (node_read never); [exact Hs'|apply lookup_insert|done|done]. }
        eapply (mlink_spec never); [exact Hs'|apply never_pos|apply lookup_insert|done|done|].
        intros h' t' Hs''. rewrite delete_insert in Hs'' by done. apply runs_ret. unfold set_heap; simpl.
        eapply Hok; [|done|exact Hs'']. apply one_more_ctx. by eapply sin_ctx.
      + intros i j u Hi. rbind. eapply destroy_node_spec; [simpl; apply lookup_insert|done|]. simpl.
        rewrite delete_insert by done. rbind. apply runs_deref. apply runs_ret. by eapply Hold.
    - intros w' e Hw' He' Hne. rbind. apply runs_has_err. rewrite He'. apply runs_ret. by eapply Hfail.
  Qed.
  Lemma insert_equal_any o xs t hf x v w (Q : addr -> W -> Prop) :
    sin o xs (w_heap w) hf t -> rd (w_heap w) x v -> w_err w = None ->
    (forall a ys h' t' orc, one_more (a, v) xs ys -> w_heap w !! a = None -> sin o ys h' hf t' ->
       Q a (World h' orc None (S (w_allocs w)) (S (w_ctors w)))) ->
    (forall w' e, w_heap w' = w_heap w -> w_err w' = Some e -> tnode_error cf e -> Q (t_end o) w') ->
    runs (insert_equal cf comp o x) w Q.
  Proof.
    intros Hs Hx He Hok Hfail. unfold insert_equal, insert_equal_pos, t_end. rbind. rbind. eapply runs_root; [by eapply sin_hdr|].
    rbind. apply runs_tree_fuel. pose proof (tree_height_fuel _ _ _ _ _ _ Hs) as Hf. pose proof Hs as (Ht & _).
    rbind. eapply (equal_pos_any _ (t_hdr o) _ _ _ _ _ Top t x v); [exact Ht|done|done|done|].
    simpl plug. intros k Hk Hsd. apply runs_ret. rewrite <-Hk in Hs. unfold m_insert. rbind.
    eapply side_any; [exact Hs|exact Hsd|by apply rd_reads|].
    eapply (mmake_spec cf never o xs k); [exact Hs|apply never_pos|exact Hx|done|done| |done].
    intros a h' t' orc Ha Hs'. eapply Hok; [|done|exact Hs']. apply one_more_ctx. by eapply sin_ctx.
  Qed.
  Lemma insert_equal_lower_any o xs t hf x v w (Q : addr -> W -> Prop) :
    sin o xs (w_heap w) hf t -> rd (w_heap w) x v -> w_err w = None ->
    (forall a ys h' t' orc, one_more (a, v) xs ys -> w_heap w !! a = None -> sin o ys h' hf t' ->
       Q a (World h' orc None (S (w_allocs w)) (S (w_ctors w)))) ->
    (forall w' e, w_heap w' = w_heap w -> w_err w' = Some e -> tnode_error cf e -> Q (t_end o) w') ->
    runs (insert_equal_lower cf comp o x) w Q.
  Proof.
    intros Hs Hx He Hok Hfail. unfold insert_equal_lower, t_end. rbind. eapply runs_root; [by eapply sin_hdr|].
    rbind. apply runs_tree_fuel. pose proof (tree_height_fuel _ _ _ _ _ _ Hs) as Hf. pose proof Hs as (Ht & _).
    rbind. eapply (equal_lower_any _ (t_hdr o) _ _ _ _ _ Top t x v); [exact Ht|done|done|done|].
    simpl plug. intros k Hk Hsd. rewrite <-Hk in Hs. unfold m_insert_lower. rbind.
    eapply side_lower_any; [exact Hs|exact Hsd|by apply rd_reads|].
    eapply (mmake_spec cf never o xs k); [exact Hs|apply never_pos|exact Hx|done|done| |done].
    intros a h' t' orc Ha Hs'. eapply Hok; [|done|exact Hs']. apply one_more_ctx. by eapply sin_ctx.
  Qed.
  Lemma emplace_equal_any o xs t hf x v w (Q : addr -> W -> Prop) :
    sin o xs (w_heap w) hf t -> rd (w_heap w) x v -> w_err w = None ->
    (forall a ys h' t' orc, one_more (a, v) xs ys -> w_heap w !! a = None -> sin o ys h' hf t' ->
       Q a (World h' orc None (S (w_allocs w)) (S (w_ctors w)))) ->
    (forall w' e, w_heap w' = w_heap w -> w_err w' = Some e -> tnode_error cf e -> Q (t_end o) w') ->
    runs (emplace_equal cf comp o x) w Q.
  Proof.
    intros Hs Hx He Hok Hfail. unfold emplace_equal. rbind. eapply create_spec; [done|exact Hx| |].
    - intros a orc Ha. rbind. apply runs_has_err. simpl. rbind. apply runs_deref.
      destruct (created _ _ _ _ _ _ _ v Hs Ha) as (Hs' & Hfa & Hrd).
      unfold insert_equal_pos, t_end. rbind. rbind. eapply runs_root; [by eapply sin_hdr|].
      rbind. apply runs_tree_fuel. pose proof (tree_height_fuel _ _ _ _ _ _ Hs') as Hf. pose proof Hs' as (Ht & _).
      rbind. eapply (equal_pos_any _ (t_hdr o) _ _ _ _ _ Top t (TARef a) v); [exact Ht|exact Hrd|done|done|].
      simpl plug. intros k Hk Hsd. apply runs_ret. rewrite <-Hk in Hs'. unfold m_insert_node. rbind.
      eapply side_any; [exact Hs'|exact Hsd| |].
      { intros Q' HQ'. eapply (node_read never); [exact Hs'|apply lookup_insert|done|done]. }
      eapply (mlink_spec never); [exact Hs'|apply never_pos|apply lookup_insert|done|done|].
      intros h' t' Hs''. rewrite delete_insert in Hs'' by done. unfold set_heap; simpl.
      eapply Hok; [|done|exact Hs'']. apply one_more_ctx. by eapply sin_ctx.
    - intros w' e Hw' He' Hne. rbind. apply runs_has_err. rewrite He'. apply runs_ret. by eapply Hfail.
  Qed.

  (** ** Lookup *)

  Lemma first_left y a v (X Y : list E) i : i <= length X -> first_of y (drop i (X ++ (a, v) :: Y)) = first_of a (drop i X).
  Proof.
    intros Hi. rewrite drop_app_le by done. destruct (drop i X) as [|[b u] Z]; done.
  Qed.
  Lemma first_right y (p : E) (X Y : list E) i : first_of y (drop (length X + S i) (X ++ p :: Y)) = first_of y (drop i Y).
  Proof.
    rewrite drop_app_ge by lia. replace (length X + S i - length X) with (S i) by lia. done.
  Qed.

  Lemma lower_loop_any al hdr lm rm n hf fuel k t y kt kv w (Q : addr -> W -> Prop) :
    tin al hdr lm rm n (w_heap w) hf (plug k t) -> rd (w_heap w) kt kv -> height t < fuel ->
    (forall i, i <= length (elems t) -> Q (first_of y (drop i (elems t))) w) ->
    runs (lower_loop comp fuel (root t) y kt) w Q.
  Proof.
    intros Ht Hk. revert k t y Ht. induction fuel as [|fuel IH]; intros k t y Ht Hf HQ; [lia|].
    destruct t as [|c a v l r]; [apply runs_ret; by apply (HQ 0)|]. simpl in Hf. simpl root. simpl lower_loop.
    pose proof (tin_node al hdr _ _ _ _ _ _ _ _ _ _ _ Ht) as Hx. simpl in HQ. rewrite app_length in HQ. simpl in HQ.
    rbind. eapply runs_tread_node; [exact Ht|]. rbind. apply (rd_reads _ _ kv); [done|].
    destruct (negb (comp v kv)); cbv iota.
    - rbind. eapply (runs_get_child al DL); [exact Hx|].
      eapply (IH (Frame DL c a v r k)); [exact Ht|lia|]. intros i Hi. rewrite <-(first_left y a v (elems l) (elems r)) by done. apply HQ. lia.
    - rbind. eapply (runs_get_child al DR); [exact Hx|].
      eapply (IH (Frame DR c a v l k)); [exact Ht|lia|]. intros i Hi. rewrite <-(first_right y (a, v) (elems l)). apply HQ. lia.
  Qed.
  Lemma upper_loop_any al hdr lm rm n hf fuel k t y kt kv w (Q : addr -> W -> Prop) :
    tin al hdr lm rm n (w_heap w) hf (plug k t) -> rd (w_heap w) kt kv -> height t < fuel ->
    (forall i, i <= length (elems t) -> Q (first_of y (drop i (elems t))) w) ->
    runs (upper_loop comp fuel (root t) y kt) w Q.
  Proof.
    intros Ht Hk. revert k t y Ht. induction fuel as [|fuel IH]; intros k t y Ht Hf HQ; [lia|].
    destruct t as [|c a v l r]; [apply runs_ret; by apply (HQ 0)|]. simpl in Hf. simpl root. simpl upper_loop.
    pose proof (tin_node al hdr _ _ _ _ _ _ _ _ _ _ _ Ht) as Hx. simpl in HQ. rewrite app_length in HQ. simpl in HQ.
    rbind. eapply runs_tread_node; [exact Ht|]. rbind. apply (rd_reads _ _ kv); [done|].
    destruct (comp kv v); cbv iota.
    - rbind. eapply (runs_get_child al DL); [exact Hx|].
      eapply (IH (Frame DL c a v r k)); [exact Ht|lia|]. intros i Hi. rewrite <-(first_left y a v (elems l) (elems r)) by done. apply HQ. lia.
    - rbind. eapply (runs_get_child al DR); [exact Hx|].
      eapply (IH (Frame DR c a v l k)); [exact Ht|lia|]. intros i Hi. rewrite <-(first_right y (a, v) (elems l)). apply HQ. lia.
  Qed.
  Lemma equal_range_loop_any al hdr lm rm n hf fuel k t y kt kv w (Q : addr * addr -> W -> Prop) :
    tin al hdr lm rm n (w_heap w) hf (plug k t) -> rd (w_heap w) kt kv -> height t < fuel -> height t < rounds (size (w_heap w)) ->
    (forall i j, i <= j -> j <= length (elems t) -> Q (first_of y (drop i (elems t)), first_of y (drop j (elems t))) w) ->
    runs (equal_range_loop comp fuel (root t) y kt) w Q.
  Proof.
    intros Ht Hk. revert k t y Ht. induction fuel as [|fuel IH]; intros k t y Ht Hf Hf' HQ; [lia|].
    destruct t as [|c a v l r]; [apply runs_ret; by apply (HQ 0 0)|]. simpl in Hf, Hf'. simpl root. simpl equal_range_loop.
    pose proof (tin_node al hdr _ _ _ _ _ _ _ _ _ _ _ Ht) as Hx. simpl in HQ. rewrite app_length in HQ. simpl in HQ.
    rbind. eapply runs_tread_node; [exact Ht|]. rbind. apply (rd_reads _ _ kv); [done|].
    destruct (comp v kv); [|destruct (comp kv v)].
    - rbind. eapply (runs_get_child al DR); [exact Hx|].
      eapply (IH (Frame DR c a v l k)); [exact Ht|lia|lia|]. intros i j Hij Hj.
      rewrite <-(first_right y (a, v) (elems l) (elems r) i), <-(first_right y (a, v) (elems l) (elems r) j). apply HQ; lia.
    - rbind. eapply (runs_get_child al DL); [exact Hx|].
      eapply (IH (Frame DL c a v r k)); [exact Ht|lia|lia|]. intros i j Hij Hj.
      rewrite <-(first_left y a v (elems l) (elems r) i), <-(first_left y a v (elems l) (elems r) j) by lia. apply HQ; lia.
    - rbind. eapply (runs_get_child al DL); [exact Hx|]. rbind. eapply (runs_get_child al DR); [exact Hx|].
      rbind. unfold m_lower_bound. rbind. apply runs_tree_fuel.
      eapply (lower_loop_any al hdr _ _ _ _ _ (Frame DL c a v r k)); [exact Ht|done|lia|].
      intros i Hi. rbind. unfold m_upper_bound. rbind. apply runs_tree_fuel.
      eapply (upper_loop_any al hdr _ _ _ _ _ (Frame DR c a v l k)); [exact Ht|done|lia|].
      intros j Hj. apply runs_ret. rewrite <-(first_left y a v (elems l) (elems r)) by done.
      rewrite <-(first_right y (a, v) (elems l) (elems r) j). apply HQ; lia.
  Qed.

  Lemma lower_bound_any o xs t hf (k : targ V) v w (Q : addr -> W -> Prop) :
    sin o xs (w_heap w) hf t -> rd (w_heap w) k v ->
    (forall i, i <= length xs -> Q (tpos (t_hdr o) xs i) w) -> runs (lower_bound comp o k) w Q.
  Proof.
    intros Hs Hk HQ. unfold lower_bound, m_lower_bound, t_end. rbind. eapply runs_root; [by eapply sin_hdr|]. rbind. apply runs_tree_fuel.
    pose proof (tree_height_fuel _ _ _ _ _ _ Hs) as Hf. destruct Hs as (Ht & <- & _).
    eapply (lower_loop_any _ (t_hdr o) _ _ _ _ _ Top); [exact Ht|done|done|]. intros i Hi. rewrite <-tpos_first. by apply HQ.
  Qed.
  Lemma upper_bound_any o xs t hf (k : targ V) v w (Q : addr -> W -> Prop) :
    sin o xs (w_heap w) hf t -> rd (w_heap w) k v ->
    (forall i, i <= length xs -> Q (tpos (t_hdr o) xs i) w) -> runs (upper_bound comp o k) w Q.
  Proof.
    intros Hs Hk HQ. unfold upper_bound, m_upper_bound, t_end. rbind. eapply runs_root; [by eapply sin_hdr|]. rbind. apply runs_tree_fuel.
    pose proof (tree_height_fuel _ _ _ _ _ _ Hs) as Hf. destruct Hs as (Ht & <- & _).
    eapply (upper_loop_any _ (t_hdr o) _ _ _ _ _ Top); [exact Ht|done|done|]. intros i Hi. rewrite <-tpos_first. by apply HQ.
  Qed.
  Lemma equal_range_any o xs t hf (k : targ V) v w (Q : addr * addr -> W -> Prop) :
    sin o xs (w_heap w) hf t -> rd (w_heap w) k v ->
    (forall i j, i <= j -> j <= length xs -> Q (tpos (t_hdr o) xs i, tpos (t_hdr o) xs j) w) -> runs (equal_range comp o k) w Q.
  Proof.
    intros Hs Hk HQ. unfold equal_range, t_end. rbind. eapply runs_root; [by eapply sin_hdr|]. rbind. apply runs_tree_fuel.
    pose proof (tree_height_fuel _ _ _ _ _ _ Hs) as Hf. destruct Hs as (Ht & <- & _).
    eapply (equal_range_loop_any _ (t_hdr o) _ _ _ _ _ Top); [exact Ht|done|done|done|].
    intros i j Hij Hj. rewrite <-!tpos_first. by apply HQ.
  Qed.
  Lemma find_any o xs t hf (k : targ V) v w (Q : addr -> W -> Prop) :
    sin o xs (w_heap w) hf t -> rd (w_heap w) k v ->
    (forall i, i <= length xs -> Q (tpos (t_hdr o) xs i) w) -> runs (t_find comp o k) w Q.
  Proof.
    intros Hs Hk HQ. unfold t_find, t_end. rbind. eapply lower_bound_any; [exact Hs|done|]. intros i Hi.
    assert (Q (t_hdr o) w) as Hend by (rewrite <-(tpos_end (t_hdr o) xs (length xs)) by done; by apply HQ).
    destruct (decide (tpos (t_hdr o) xs i = t_hdr o)); [by apply runs_ret|].
    destruct (xs !! i) as [[a u]|] eqn:Ei; [|apply lookup_ge_None in Ei; by rewrite tpos_end in n].
    rewrite (tpos_some _ _ _ _ _ Ei). rbind. apply (rd_reads _ _ v); [done|]. rbind. eapply tread_spec; [exact Hs|done|].
    destruct (comp v u); apply runs_ret; [done|]. rewrite <-(tpos_some (t_hdr o) _ _ _ _ Ei). by apply HQ.
  Qed.
  Lemma count_any o xs t hf (k : targ V) v w (Q : nat -> W -> Prop) :
    sin o xs (w_heap w) hf t -> rd (w_heap w) k v ->
    (forall n, n <= length xs -> Q n w) -> runs (t_count comp o k) w Q.
  Proof.
    intros Hs Hk HQ. unfold t_count. rbind. eapply equal_range_any; [exact Hs|done|]. intros i j Hij Hj.
    rbind. apply runs_cell_fuel.
    assert (length xs < size (w_heap w)) as Hf.
    { destruct Hs as (Ht & He & _). pose proof (fuel_bound _ _ _ _ _ _ _ _ Ht). by rewrite He in *. }
    eapply distance_spec; [exact Hs|done|done|lia|]. apply HQ. lia.
  Qed.
  Lemma erase_key_any o xs t hf (k : targ V) v w (Q : nat -> W -> Prop) :
    sin o xs (w_heap w) hf t -> rd (w_heap w) k v ->
    (forall i n h' t', i + n <= length xs -> sin o (take i xs ++ drop (i + n) xs) h' hf t' -> Q n (set_heap h' w)) ->
    runs (t_erase_key cf comp o k) w Q.
  Proof.
    intros Hs Hk HQ. unfold t_erase_key. rbind. eapply equal_range_any; [exact Hs|done|]. intros i j Hij Hj.
    rbind. eapply size_spec; [exact Hs|]. rbind. eapply erase_range_spec; [exact Hs|done|done|]. intros h' t' Hs'.
    rbind. eapply size_spec; [exact Hs'|]. apply runs_ret.
    replace (length xs - length (take i xs ++ drop j xs)) with (j - i) by (rewrite app_length, take_length, drop_length; lia).
    apply (HQ i _ _ t'); [lia|]. by replace (i + (j - i)) with j by lia.
  Qed.
End any.
