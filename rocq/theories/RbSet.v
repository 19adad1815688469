(** * The set operations, one by one *)
From Verif Require Export RbSearch.

Section set.
  Context {V : Type} {L : limit} (cf : cfg V) (comp : V -> V -> bool).
  Notation H := (gmap addr (tcell V)).
  Notation W := (world (tcell V)).
  Notation E := (addr * V)%type.
  Implicit Types h hf : H.
  Implicit Types w : W.
  Implicit Types t s : tree V.
  Implicit Types n : nat.
  Implicit Types k : @ctx V.
  Implicit Types o : tset.
  Implicit Types xs : list E.
  Notation addrs t := (elems t).*1.

  (** The heap [h] is the frame [hf] and a set with shape [t]. *)
  Definition sin o xs h hf t : Prop :=
    tin (t_alloc o) (t_hdr o) (first_of (t_hdr o) xs) (last_of (t_hdr o) xs) (length xs) h hf t /\
    elems t = xs /\ rb t /\ asc comp xs.

  Lemma set_is_sin o xs hf w : set_is comp o xs hf w <-> exists t, sin o xs (w_heap w) hf t.
  Proof.
    split.
    - intros (hv & (Ha & t & He & Hh & Ht & Hn & Hdom & Hrb) & Hw & Hd). rewrite He in *. exists t. split_and!.
      + assert (forall a, a ∈ t_hdr o :: xs.*1 -> w_heap w !! a = hv !! a) as Hin.
        { intros a Ha'. apply Hdom in Ha' as [c Hc]. rewrite Hw, Hc. by apply lookup_union_Some_l. }
        split.
        * rewrite Hin by set_solver. exact Hh.
        * eapply tat_ext; [|exact Ht]. intros a Hx. apply Hin. rewrite He in Hx. set_solver.
        * by rewrite He.
        * intros a Hx. rewrite He in Hx. rewrite Hw. apply lookup_union_r. apply eq_None_not_Some. by rewrite Hdom.
        * intros a Hx. rewrite He in Hx. apply Hdom in Hx as [c Hc]. by eapply map_disjoint_Some_l.
      + done.
      + done.
      + by apply asc_ascending.
    - intros (t & [Hh Ht Hn Hout Hnone] & He & Hrb & Ha). rewrite He in *.
      set (hv := filter (fun p : addr * tcell V => p.1 ∈ t_hdr o :: xs.*1) (w_heap w)).
      assert (forall a, a ∈ t_hdr o :: xs.*1 -> hv !! a = w_heap w !! a) as Hin.
      { intros a Hx. unfold hv. rewrite map_filter_lookup. destruct (w_heap w !! a) eqn:E; simpl; [|done].
        by rewrite option_guard_True. }
      assert (forall a, a ∉ t_hdr o :: xs.*1 -> hv !! a = None) as Hnin.
      { intros a Hx. unfold hv. rewrite map_filter_lookup. destruct (w_heap w !! a) eqn:E; simpl; [|done].
        by rewrite option_guard_False. }
      assert (forall a, a ∈ t_hdr o :: xs.*1 -> is_Some (w_heap w !! a)) as Hsome.
      { intros a [->|Hx]%elem_of_cons; [by rewrite Hh|]. eapply tat_some; [exact Ht|]. by rewrite He. }
      exists hv. split; [split; [by apply asc_ascending|]; exists t; split; [done|]|].
      + unfold tree_own. rewrite He. split_and!.
        * rewrite Hin by set_solver. exact Hh.
        * eapply tat_ext; [|exact Ht]. rewrite He. intros a Hx. apply Hin. set_solver.
        * done.
        * intros a. split.
          -- intros [c Hc]. destruct (decide (a ∈ t_hdr o :: xs.*1)) as [|Hx]; [done|]. by rewrite Hnin in Hc.
          -- intros Hx. rewrite Hin by done. auto.
        * done.
      + split.
        * apply map_eq. intros a. destruct (decide (a ∈ t_hdr o :: xs.*1)) as [Hx|Hx].
          -- destruct (Hsome a Hx) as [c Hc]. rewrite Hc. symmetry. apply lookup_union_Some_l. by rewrite Hin.
          -- rewrite lookup_union_r by auto. auto.
        * apply map_disjoint_spec. intros a c c' Hc Hc'. destruct (decide (a ∈ t_hdr o :: xs.*1)) as [Hx|Hx].
          -- by rewrite Hnone in Hc'.
          -- by rewrite Hnin in Hc.
  Qed.

  Lemma tin_frame_alloc al hdr lm rm n h hf t x c :
    tin al hdr lm rm n h hf t -> h !! x = None -> tin al hdr lm rm n (<[x := c]> h) (<[x := c]> hf) t /\ hf !! x = None.
  Proof.
    intros [Hh Ht Hn Hout Hnone] Hx.
    assert (x ∉ hdr :: addrs t) as Hni.
    { intros [->|Hin]%elem_of_cons; [congruence|]. eapply tat_some in Ht as [? ?]; [|done]. congruence. }
    split.
    - split; [| |done| |].
      + rewrite lookup_insert_ne by set_solver. done.
      + eapply tat_ext; [|done]. intros a Ha. rewrite lookup_insert_ne by set_solver. done.
      + intros a Ha. destruct (decide (a = x)) as [->|]; [by rewrite !lookup_insert|].
        rewrite !lookup_insert_ne by done. auto.
      + intros a Ha. rewrite lookup_insert_ne by set_solver. auto.
    - by rewrite <-Hout.
  Qed.
  Lemma tin_frame_free al hdr lm rm n h hf t x c :
    tin al hdr lm rm n h hf t -> hf !! x = Some c -> tin al hdr lm rm n (delete x h) (delete x hf) t.
  Proof.
    intros [Hh Ht Hn Hout Hnone] Hx.
    assert (x ∉ hdr :: addrs t) as Hni.
    { intros Hin. apply Hnone in Hin. congruence. }
    split; [| |done| |].
    - rewrite lookup_delete_ne by set_solver. done.
    - eapply tat_ext; [|done]. intros a Ha. rewrite lookup_delete_ne by set_solver. done.
    - intros a Ha. destruct (decide (a = x)) as [->|]; [by rewrite !lookup_delete|].
      rewrite !lookup_delete_ne by done. auto.
    - intros a Ha. destruct (decide (a = x)) as [->|]; [by rewrite !lookup_delete|].
      rewrite !lookup_delete_ne by done. auto.
  Qed.
  Lemma tin_frame_upd al hdr lm rm n h hf t x c c' :
    tin al hdr lm rm n h hf t -> hf !! x = Some c -> tin al hdr lm rm n (<[x := c']> h) (<[x := c']> hf) t.
  Proof.
    intros [Hh Ht Hn Hout Hnone] Hx.
    assert (x ∉ hdr :: addrs t) as Hni.
    { intros Hin. apply Hnone in Hin. congruence. }
    split; [| |done| |].
    - rewrite lookup_insert_ne by set_solver. done.
    - eapply tat_ext; [|done]. intros a Ha. rewrite lookup_insert_ne by set_solver. done.
    - intros a Ha. destruct (decide (a = x)) as [->|]; [by rewrite !lookup_insert|].
      rewrite !lookup_insert_ne by done. auto.
    - intros a Ha. rewrite lookup_insert_ne by set_solver. auto.
  Qed.

  (** ** Arguments *)

  Definition rd h (x : targ V) (v : V) : Prop :=
    match x with
    | TAVal y => y = v
    | TARef a => exists c al, h !! a = Some c /\ tn_body c = TNode al (Some v)
    end.
  Lemma rd_reads w x v : rd (w_heap w) x v -> forall Q : V -> W -> Prop, Q v w -> runs (read_targ x) w Q.
  Proof.
    intros Hx Q HQ. destruct x as [y|a]; simpl in *; [subst; by apply runs_ret|].
    destruct Hx as (c & al & Hc & Hb). by eapply runs_tread.
  Qed.
  Lemma rd_alloc h x v a c : rd h x v -> h !! a = None -> rd (<[a := c]> h) x v.
  Proof.
    intros Hx Ha. destruct x as [y|b]; simpl in *; [done|]. destruct Hx as (c' & al & Hc & Hb).
    exists c', al. rewrite lookup_insert_ne by congruence. done.
  Qed.
  Lemma targ_rd o xs h hf t x v : sin o xs h hf t -> targ_is xs hf x v -> rd h x v.
  Proof.
    intros ([Hh Ht Hn Hout Hnone] & He & _) Hx. destruct x as [y|a]; simpl in *; [done|].
    destruct Hx as [Hx|(c & al & Hc & Hb)].
    - rewrite <-He in Hx. apply elem_of_list_lookup in Hx as [i Hi].
      destruct (find_ctx t i a v Hi) as (k & c & l & r & -> & _).
      apply tat_plug in Ht as (_ & Ha & _). eauto.
    - exists c, al. split; [|done]. rewrite Hout; [done|]. intros Hin. apply Hnone in Hin. congruence.
  Qed.

  (** ** Nodes *)

  Definition fresh_cell o (v : V) : tcell V := TCell None None None None (TNode (t_alloc o) (Some v)).

  Lemma create_spec o x v w (Q : option addr -> W -> Prop) :
    w_err w = None -> rd (w_heap w) x v ->
    (forall a orc, w_heap w !! a = None ->
       Q (Some a) (World (<[a := fresh_cell o v]> (w_heap w)) orc None (S (w_allocs w)) (S (w_ctors w)))) ->
    (forall w' e, w_heap w' = w_heap w -> w_err w' = Some e -> tnode_error cf e -> Q None w') ->
    runs (tcreate_node cf o x) w Q.
  Proof.
    intros He Hx Hok Hfail. unfold tcreate_node. rbind. apply runs_alloc_cell.
    - intros a orc Ha. rbind. apply runs_has_err. simpl. rewrite He. rbind. apply runs_deref.
      set (c0 := TCell None None None None (TNode (t_alloc o) None)).
      rbind. eapply (runs_construct cf _ _ _ _ v (<[a := c0]> (w_heap w)) (fun y => <[a := fresh_cell o y]> (w_heap w)));
        [done|done| | | | | |].
      + intros y w1 P Hw1 HP. unfold tplace. rbind. eapply runs_load; [rewrite Hw1; apply lookup_insert|]. simpl.
        eapply runs_store; [rewrite Hw1; apply lookup_insert|]. by rewrite Hw1, insert_insert.
      + intros y z w1 P Hw1 HP. unfold toverwrite. rbind. eapply runs_load; [rewrite Hw1; apply lookup_insert|]. simpl.
        eapply runs_store; [rewrite Hw1; apply lookup_insert|]. by rewrite Hw1, insert_insert.
      + intros z w1 P Hw1 HP. unfold tdestroy_value. rbind. eapply runs_load; [rewrite Hw1; apply lookup_insert|]. simpl.
        eapply runs_store; [rewrite Hw1; apply lookup_insert|]. by rewrite Hw1, insert_insert.
      + intros w1 P Hw1 HP. apply (rd_reads _ _ v); [|done]. destruct Hw1 as [->|[y ->]]; by apply rd_alloc.
      + intros orc'. simpl. rbind. apply runs_has_err. simpl. apply runs_ret. by apply Hok.
      + intros orc' code Hnt. simpl. rbind. apply runs_has_err. simpl. rbind. unfold put_node. rbind. apply runs_get_heap. simpl.
        rewrite lookup_insert. simpl. rewrite decide_False by (intros Hne; by apply Hne).
        eapply runs_free_cell; [simpl; apply lookup_insert|]. simpl. apply runs_ret. eapply Hfail; simpl; [|done|].
        * by apply delete_insert.
        * right. eauto.
    - intros orc. rbind. apply runs_has_err. simpl. apply runs_ret. eapply Hfail; simpl; [done|done|by left].
  Qed.

  Lemma destroy_node_spec o a c v w (Q : unit -> W -> Prop) :
    w_heap w !! a = Some c -> tn_body c = TNode (t_alloc o) (Some v) ->
    Q tt (set_heap (delete a (w_heap w)) w) ->
    runs (tdestroy_node o a) w Q.
  Proof.
    intros Ha Hc HQ. unfold tdestroy_node. rbind. unfold tdestroy_value. rbind. eapply runs_load; [done|]. rewrite Hc.
    eapply runs_store; [done|]. unfold put_node. rbind. apply runs_get_heap. simpl. rewrite lookup_insert. simpl.
    rewrite decide_False by (intros Hne; by apply Hne). eapply runs_free_cell; [simpl; apply lookup_insert|].
    simpl. rewrite delete_insert_delete. exact HQ.
  Qed.

  Lemma runs_get_count o r lm rm n w (Q : nat -> W -> Prop) :
    w_heap w !! t_hdr o = Some (hcell r lm rm n) -> Q n w -> runs (get_count o) w Q.
  Proof. intros Ha HQ. unfold get_count. rbind. eapply runs_load; [done|]. simpl. by apply runs_ret. Qed.
  Lemma runs_set_count o r lm rm n m w (Q : unit -> W -> Prop) :
    w_heap w !! t_hdr o = Some (hcell r lm rm n) ->
    Q tt (set_heap (<[t_hdr o := hcell r lm rm m]> (w_heap w)) w) -> runs (set_count o m) w Q.
  Proof. intros Ha HQ. unfold set_count. rbind. eapply runs_load; [done|]. by eapply runs_store. Qed.

  (** ** Positions *)

  Lemma tpos_first hdr xs i : tpos hdr xs i = first_of hdr (drop i xs).
  Proof.
    unfold tpos, first_of. revert i. induction xs as [|[a v] xs IH]; intros [|i]; simpl; [done..|]. apply IH.
  Qed.
  Lemma tpos_last hdr xs i : i < length xs -> tpos hdr xs i = last_of hdr (take (S i) xs).
  Proof.
    intros Hi. apply lookup_lt_is_Some in Hi as [[a v] Ha]. erewrite take_S_r by done. rewrite last_snoc'.
    unfold tpos. by rewrite list_lookup_fmap, Ha.
  Qed.
  Lemma tpos_some hdr xs i a v : xs !! i = Some (a, v) -> tpos hdr xs i = a.
  Proof. intros Ha. unfold tpos. by rewrite list_lookup_fmap, Ha. Qed.
  Lemma tpos_end hdr xs i : length xs <= i -> tpos hdr xs i = hdr.
  Proof. intros Hi. unfold tpos. rewrite list_lookup_fmap, lookup_ge_None_2; done. Qed.
  Lemma tpos_ne o xs h hf t i : sin o xs h hf t -> i < length xs -> tpos (t_hdr o) xs i <> t_hdr o.
  Proof.
    intros (Ht & He & _) Hi. apply lookup_lt_is_Some in Hi as [[a v] Ha]. rewrite (tpos_some _ _ _ _ _ Ha). intros ->.
    pose proof (tin_nodup _ _ _ _ _ _ _ _ Ht) as Hn. rewrite He in Hn. apply NoDup_cons in Hn as [Hn _]. apply Hn.
    apply elem_of_list_fmap. exists (t_hdr o, v). split; [done|]. by eapply elem_of_list_lookup_2.
  Qed.

  Lemma runs_inc o xs hf t i w (Q : addr -> W -> Prop) :
    sin o xs (w_heap w) hf t -> i < length xs ->
    Q (tpos (t_hdr o) xs (S i)) w -> runs (rb_increment (tpos (t_hdr o) xs i)) w Q.
  Proof.
    intros (Ht & He & Hrb & _) Hi HQ. subst xs. apply lookup_lt_is_Some in Hi as [[a v] Ha].
    rewrite (tpos_some _ _ _ _ _ Ha). destruct (find_ctx t i a v Ha) as (k & c & l & r & Heq & _ & Hpost).
    rewrite tpos_first, <-Hpost in HQ. rewrite Heq in Ht, Hrb. eapply increment_spec; [exact Ht|by eapply tin_fits|exact HQ].
  Qed.
  Lemma runs_dec o xs hf t i w (Q : addr -> W -> Prop) :
    sin o xs (w_heap w) hf t -> S i <= length xs ->
    Q (tpos (t_hdr o) xs i) w -> runs (rb_decrement (tpos (t_hdr o) xs (S i))) w Q.
  Proof.
    intros (Ht & He & Hrb & _) Hi HQ. subst xs.
    destruct (decide (S i = length (elems t))) as [Hlen|Hlen].
    - rewrite tpos_end by lia. eapply decrement_end_spec; [exact Ht|by destruct t; simpl in *|].
      rewrite tpos_last, take_ge in HQ by lia. exact HQ.
    - assert (S i < length (elems t)) as Hi' by lia. apply lookup_lt_is_Some in Hi' as [[a v] Ha].
      rewrite (tpos_some _ _ _ _ _ Ha). destruct (find_ctx t (S i) a v Ha) as (k & c & l & r & Heq & Hpre & _).
      rewrite tpos_last, <-Hpre in HQ by lia. rewrite Heq in Ht, Hrb. eapply decrement_spec; [exact Ht|done| |exact HQ].
      rewrite Hpre. destruct (elems t); [simpl in *; lia|done].
  Qed.

  (** ** Where to insert *)

  Lemma cpre_dec (k : @ctx V) hdr : goes_left k = false -> k <> Top -> last_of hdr (cpre k) = cpar hdr k.
  Proof. destruct k as [|[] c a v s k]; simpl; [done..|]. intros _ _. by rewrite (assoc_L (++)), last_snoc'. Qed.

  Lemma unique_pos_find o t n hf kt kv w (Q : option addr * option addr -> W -> Prop) :
    swo comp ->
    let hdr := t_hdr o in
    tin (t_alloc o) hdr (first_of hdr (elems t)) (last_of hdr (elems t)) n (w_heap w) hf t -> rb t -> asc comp (elems t) ->
    rd (w_heap w) kt kv ->
    (forall k, plug k Leaf = t -> (forall p, p ∈ cpre k -> comp p.2 kv = true) -> (forall p, p ∈ cpost k -> comp kv p.2 = true) ->
       Q (None, Some (cpar hdr k)) w) ->
    (forall i j v, elems t !! i = Some (j, v) -> comp v kv = false -> comp kv v = false -> Q (Some j, None) w) ->
    runs (insert_unique_pos comp o kt) w Q.
  Proof.
    intros Hswo hdr Ht Hrb Ha Hk Hnew Hold. unfold insert_unique_pos.
    rbind. eapply runs_root; [exact (tin_hdr _ _ _ _ _ _ _ _ Ht)|]. rbind. apply runs_tree_fuel.
    rbind. eapply (unique_pos_spec comp (t_alloc o) hdr _ _ _ _ _ Top t kt kv); [exact Ht|by apply rd_reads| |done|done|set_solver|set_solver|].
    { by eapply tin_fits. }
    simpl plug. intros k Hplug Hpre Hpost. simpl fst. simpl snd.
    rbind. unfold t_begin. rbind. eapply (runs_get_lm (t_hdr o)); [exact (tin_hdr _ _ _ _ _ _ _ _ Ht)|]. apply runs_deref.
    assert (elems t = cpre k ++ cpost k) as HE. { rewrite <-Hplug, elems_plug. done. }
    assert (NoDup (hdr :: (cpre k).*1 ++ (cpost k).*1)) as Hnd.
    { pose proof (tin_nodup _ _ _ _ _ _ _ _ Ht) as Hn. by rewrite HE, fmap_app in Hn. }
    destruct (decide (cpre k = [])) as [Hnil|Hne].
    { (* at the very beginning *)
      assert (goes_left k = true) as ->.
      { destruct k as [|[] c a v s k]; [done..|]. apply (f_equal length) in Hnil. simpl in Hnil. rewrite !app_length in Hnil. simpl in Hnil. lia. }
      rewrite bool_decide_true.
      2: { rewrite HE, Hnil. simpl. symmetry. apply cpre_nil_first. done. }
      simpl. apply runs_ret. apply Hnew; [done| |done]. rewrite Hnil. set_solver. }
    assert (goes_left k && bool_decide (cpar hdr k = first_of hdr (elems t)) = false) as ->.
    { destruct k as [|[] c a v s k]; [done| |done]. simpl. apply bool_decide_eq_false. intros Heq.
      simpl in HE, Hne, Hnd. destruct (cpre k) as [|[b u] K]; [done|]. rewrite HE in Heq. unfold first_of in Heq. simpl in Heq. subst b.
      csimpl in Hnd. apply NoDup_cons in Hnd as [_ Hnd]. apply NoDup_cons in Hnd as [Hnd _]. apply Hnd. set_solver. }
    (* the last element that is not greater *)
    assert (exists X j v, cpre k = X ++ [(j, v)]) as (X & j & v & HX).
    { destruct (cpre k) as [|[j v] X _] using rev_ind; [done|]. eauto. }
    assert (forall Q' : addr -> W -> Prop, Q' j w ->
      runs (if goes_left k then rb_decrement (cpar hdr k) else ret (cpar hdr k)) w Q') as Hj.
    { intros Q' HQ'. destruct (goes_left k) eqn:Eg.
      - destruct k as [|[] c a u s k]; [done| |done]. simpl in HX, Hplug |- *. rewrite <-Hplug in Ht, Hrb.
        eapply decrement_spec; [exact Ht|done| |]; simpl elems; rewrite app_nil_r; [done|]. by rewrite HX, last_snoc'.
      - apply runs_ret. rewrite <-cpre_dec; [by rewrite HX, last_snoc'|done|]. intros ->. done. }
    rbind. apply Hj. clear Hj.
    assert (elems t !! length X = Some (j, v)) as Hi.
    { rewrite HE, HX, <-(assoc_L (++)). simpl. by rewrite list_lookup_middle. }
    rbind. destruct (find_ctx t _ _ _ Hi) as (kj & c & l & r & Heq & _). rewrite Heq in Ht.
    eapply runs_tread_node; [exact Ht|]. rbind. apply (rd_reads _ _ kv); [done|].
    destruct (comp v kv) eqn:Ec.
    - apply runs_ret. apply Hnew; [done| |done]. rewrite HX. intros p [Hp|Hp]%elem_of_app; [|apply elem_of_list_singleton in Hp as ->; done].
      eapply comp_trans; [done| |exact Ec].
      rewrite HE, HX, <-(assoc_L (++)) in Ha. apply asc_app in Ha as (_ & _ & Ha).
      apply (Ha p (j, v)); [done|]. set_solver.
    - apply runs_ret. eapply Hold; [done|done|]. apply (Hpre (j, v)). rewrite HX. set_solver.
  Qed.

  (** ** Linking a node *)

  (** the position [k] for the value [v], and the direction the code will take *)
  Definition pos_ok (xo : option addr) k (v : V) : Prop :=
    (forall p, p ∈ cpre k -> comp p.2 v = true) /\ (forall p, p ∈ cpost k -> comp v p.2 = true) /\
    (xo <> None -> goes_left k = true).

  Lemma asc_insert k x v : swo comp -> asc comp (cpre k ++ cpost k) -> pos_ok None k v -> asc comp (cpre k ++ (x, v) :: cpost k).
  Proof.
    intros Hswo Ha (Hpre & Hpost & _). apply asc_app in Ha as (H1 & H2 & H3). apply asc_app. split_and!; [done| |].
    - split; [|done]. intros q Hq. by apply Hpost.
    - intros p q Hp [->|Hq]%elem_of_cons; [by apply Hpre|by apply H3].
  Qed.

  (** whatever is left to do once the node [x] is there *)
  Lemma link_spec o xs k hf x cx v il w (Q : addr -> W -> Prop) :
    swo comp ->
    sin o xs (w_heap w) hf (plug k Leaf) -> pos_ok None k v ->
    hf !! x = Some cx -> tn_body cx = TNode (t_alloc o) (Some v) -> il = goes_left k ->
    (forall h' t', sin o (cpre k ++ (x, v) :: cpost k) h' (delete x hf) t' -> Q x (set_heap h' w)) ->
    runs (do! insert_and_rebalance il x (cpar (t_hdr o) k) (t_hdr o) in
          let! n := get_count o in
          do! set_count o (S n) in
          ret x) w Q.
  Proof.
    intros Hswo (Ht & He & Hrb & Ha) Hpos Hx Hcx -> HQ. subst xs.
    rbind. eapply (insert_rebalance_spec (t_alloc o) (t_hdr o)); [exact Ht|done|exact Hx|exact Hcx| |].
    { by destruct k as [|[]]. }
    intros h' t' He' Ht' Hrb'.
    rbind. eapply runs_get_count; [exact (tin_hdr _ _ _ _ _ _ _ _ Ht')|].
    rbind. eapply runs_set_count; [exact (tin_hdr _ _ _ _ _ _ _ _ Ht')|]. apply runs_ret. unfold set_heap; simpl.
    apply (HQ _ t'). split_and!; [|done|done|].
    - rewrite <-He'. assert (length (elems t') = S (length (elems (plug k Leaf)))) as <-.
      { rewrite He', elems_plug, !app_length. simpl. lia. }
      by eapply tin_sethdr.
    - apply asc_insert; [done| |done]. by rewrite elems_plug in Ha.
  Qed.

  (** which side: the comparison with the parent *)
  Lemma side_spec o xs k hf h xo v w (get : M (tcell V) V) (Q : bool -> W -> Prop) :
    swo comp -> h = w_heap w -> sin o xs h hf (plug k Leaf) -> pos_ok xo k v ->
    (forall Q' : V -> W -> Prop, Q' v w -> runs get w Q') ->
    Q (goes_left k) w ->
    runs (if decide (xo <> None \/ cpar (t_hdr o) k = t_end o) then ret true else
          let! kz := get in
          let! kp := tread (cpar (t_hdr o) k) in
          ret (comp kz kp)) w Q.
  Proof.
    intros Hswo -> (Ht & He & _) (Hpre & Hpost & Hxo) Hget HQ. unfold t_end.
    destruct (decide _) as [[Hx|Hx]|Hn].
    - rewrite Hxo in HQ by done. by apply runs_ret.
    - assert (k = Top) as ->.
      { destruct k as [|d c a u s k]; [done|]. exfalso. pose proof (tin_nodup _ _ _ _ _ _ _ _ Ht) as Hn.
        apply NoDup_cons in Hn as [Hn _]. apply Hn. rewrite addrs_plug. rewrite <-Hx. simpl addrs.
        pose proof (cpar_in (t_hdr o) d c a u s k). set_solver. }
      by apply runs_ret.
    - destruct k as [|d c a u s k]; [exfalso; apply Hn; by right|]. clear Hn. simpl cpar.
      rbind. apply Hget. rbind. simpl plug in Ht.
      assert (exists l r, nodeD d c a u Leaf s = Node c a u l r) as (l & r & Hnode) by (destruct d; simpl; eauto).
      rewrite Hnode in Ht. eapply runs_tread_node; [exact Ht|]. apply runs_ret.
      assert (comp v u = goes_left (Frame d c a u s k)) as ->; [|done]. destruct d; simpl.
      + apply (Hpost (a, u)). simpl. set_solver.
      + apply comp_asym; [done|]. apply (Hpre (a, u)). simpl. set_solver.
  Qed.
End set.
