(** * Lookup and removal *)
From Verif Require Export RbInsert.

Section query.
  Context {V : Type} {L : limit} (cf : cfg V) (comp : V -> V -> bool).
  Notation H := (gmap addr (tcell V)).
  Notation W := (world (tcell V)).
  Notation E := (addr * V)%type.
  Implicit Types h hf : H.
  Implicit Types w : W.
  Implicit Types t s : tree V.
  Implicit Types n : nat.
  Implicit Types o : tset.
  Implicit Types xs : list E.
  Notation addrs t := (elems t).*1.
  Notation sin := (sin comp).

  (** ** Positions *)

  (** [p] holds of exactly the first [i] elements. *)
  Definition splits (p : V -> bool) xs i : Prop :=
    i <= length xs /\ forall j a v, xs !! j = Some (a, v) -> p v = bool_decide (j < i).

  Lemma skip_splits p xs : down p xs -> exists i, skip p xs = drop i xs /\ splits p xs i.
  Proof.
    intros Hd. destruct (skip_spec p xs) as (i & H1 & H2 & H3 & H4). exists i. split; [done|]. split; [done|].
    intros j a v Hj. destruct (decide (j < i)) as [Hlt|Hge].
    - rewrite bool_decide_true by done. by apply (H3 j (a, v)).
    - rewrite bool_decide_false by done. destruct (p v) eqn:Ep; [|done]. exfalso.
      assert (exists y, xs !! i = Some y) as [y Hy].
      { apply lookup_lt_is_Some. apply lookup_lt_Some in Hj. lia. }
      pose proof (H4 _ Hy) as Hn. destruct (decide (i = j)) as [->|Hij].
      + rewrite Hj in Hy. injection Hy as <-. simpl in Hn. congruence.
      + assert (p y.2 = true) as Ht; [|congruence].
        apply (Hd (take j xs) (a, v) (drop (S j) xs)); [|done|].
        * symmetry. by apply take_drop_middle.
        * apply elem_of_list_lookup. exists i. rewrite lookup_take by lia. done.
  Qed.
  Lemma splits_inj p xs i j : splits p xs i -> splits p xs j -> i = j.
  Proof.
    assert (forall i j, splits p xs i -> splits p xs j -> i < j -> False) as Hx.
    { clear i j. intros i j [_ Hi] [Hlen Hj] Hij.
      assert (exists y, xs !! i = Some y) as [[a v] Hy]. { apply lookup_lt_is_Some. lia. }
      pose proof (Hi _ _ _ Hy) as H1. pose proof (Hj _ _ _ Hy) as H2.
      rewrite bool_decide_false in H1 by lia. rewrite bool_decide_true in H2 by lia. congruence. }
    intros Hi Hj. destruct (lt_eq_lt_dec i j) as [[?|?]|?]; [exfalso; eauto|done|exfalso; eauto].
  Qed.

  Lemma sin_nodup o xs h hf t : sin o xs h hf t -> NoDup (t_hdr o :: xs.*1).
  Proof. intros (Ht & He & _). pose proof (tin_nodup _ _ _ _ _ _ _ _ Ht) as Hn. by rewrite He in Hn. Qed.
  Lemma sin_hdr o xs h hf t : sin o xs h hf t -> 
    h !! t_hdr o = Some (hcell (root t) (first_of (t_hdr o) xs) (last_of (t_hdr o) xs) (length xs)).
  Proof. intros (Ht & _). exact (tin_hdr _ _ _ _ _ _ _ _ Ht). Qed.
  Lemma tpos_inj o xs i j : NoDup (t_hdr o :: xs.*1) -> i <= length xs -> j <= length xs ->
    tpos (t_hdr o) xs i = tpos (t_hdr o) xs j -> i = j.
  Proof.
    intros Hn Hi Hj He.
    assert (forall i, i <= length xs -> (xs.*1 ++ [t_hdr o]) !! i = Some (tpos (t_hdr o) xs i)) as Hl.
    { clear. intros i Hi. unfold tpos. destruct (decide (i = length xs)) as [->|].
      - rewrite lookup_app_r by (by rewrite fmap_length). rewrite fmap_length, Nat.sub_diag. simpl.
        rewrite lookup_ge_None_2; [done|]. by rewrite fmap_length.
      - assert (i < length (xs.*1)) as Hlt by (rewrite fmap_length; lia). rewrite lookup_app_l by done.
        apply lookup_lt_is_Some in Hlt as [a Ha]. by rewrite Ha. }
    pose proof (Hl i Hi) as H1. pose proof (Hl j Hj) as H2. rewrite He in H1.
    eapply NoDup_lookup; [|exact H1|exact H2]. eapply nodup_perm; [|exact Hn]. perm_solve.
  Qed.
  Lemma tpos_del hdr xs i j : i <= j -> i < length xs -> tpos hdr (take i xs ++ drop (S i) xs) j = tpos hdr xs (S j).
  Proof.
    intros Hij Hi. unfold tpos. f_equal. rewrite !list_lookup_fmap. f_equal.
    rewrite lookup_app_r by (rewrite take_length; lia). rewrite take_length, lookup_drop. f_equal. lia.
  Qed.

  (** ** Lookup *)

  Lemma begin_spec o xs t hf w (Q : addr -> W -> Prop) :
    sin o xs (w_heap w) hf t -> Q (tpos (t_hdr o) xs 0) w -> runs (t_begin o) w Q.
  Proof.
    intros Hs HQ. unfold t_begin. rbind. eapply (runs_get_lm (t_hdr o)); [by eapply sin_hdr|]. apply runs_deref.
    rewrite tpos_first, drop_0 in HQ. exact HQ.
  Qed.
  Lemma size_spec o xs t hf w (Q : nat -> W -> Prop) :
    sin o xs (w_heap w) hf t -> Q (length xs) w -> runs (t_size o) w Q.
  Proof. intros Hs HQ. eapply runs_get_count; [by eapply sin_hdr|done]. Qed.
  Lemma empty_spec o xs t hf w (Q : bool -> W -> Prop) :
    sin o xs (w_heap w) hf t -> Q (bool_decide (xs = [])) w -> runs (t_empty o) w Q.
  Proof.
    intros Hs HQ. unfold t_empty. rbind. eapply runs_get_count; [by eapply sin_hdr|]. apply runs_ret.
    replace (bool_decide (length xs = 0)) with (bool_decide (xs = [])); [done|]. destruct xs; done.
  Qed.

  Lemma lower_bound_spec o xs t hf k v w (Q : addr -> W -> Prop) :
    swo comp -> sin o xs (w_heap w) hf t -> rd (w_heap w) k v ->
    (forall i, splits (fun u => comp u v) xs i -> Q (tpos (t_hdr o) xs i) w) ->
    runs (lower_bound comp o k) w Q.
  Proof.
    intros Hswo Hs Hk HQ. unfold lower_bound. rbind. eapply runs_root; [by eapply sin_hdr|].
    unfold m_lower_bound. rbind. apply runs_tree_fuel. destruct Hs as (Ht & He & Hrb & Ha). subst xs.
    pose proof (asc_down_lower comp Hswo _ v Ha) as Hd.
    eapply (lower_loop_spec comp (t_alloc o) (t_hdr o) _ _ _ _ _ Top); [exact Ht|by apply rd_reads| |exact Hd|].
    { by eapply tin_fits. }
    destruct (skip_splits _ _ Hd) as (i & -> & Hi). unfold t_end. rewrite <-tpos_first. auto.
  Qed.
  Lemma upper_bound_spec o xs t hf k v w (Q : addr -> W -> Prop) :
    swo comp -> sin o xs (w_heap w) hf t -> rd (w_heap w) k v ->
    (forall i, splits (fun u => negb (comp v u)) xs i -> Q (tpos (t_hdr o) xs i) w) ->
    runs (upper_bound comp o k) w Q.
  Proof.
    intros Hswo Hs Hk HQ. unfold upper_bound. rbind. eapply runs_root; [by eapply sin_hdr|].
    unfold m_upper_bound. rbind. apply runs_tree_fuel. destruct Hs as (Ht & He & Hrb & Ha). subst xs.
    pose proof (asc_down_upper comp Hswo _ v Ha) as Hd.
    eapply (upper_loop_spec comp (t_alloc o) (t_hdr o) _ _ _ _ _ Top); [exact Ht|by apply rd_reads| |exact Hd|].
    { by eapply tin_fits. }
    destruct (skip_splits _ _ Hd) as (i & -> & Hi). unfold t_end. rewrite <-tpos_first. auto.
  Qed.
  Lemma equal_range_spec o xs t hf k v w (Q : addr * addr -> W -> Prop) :
    swo comp -> sin o xs (w_heap w) hf t -> rd (w_heap w) k v ->
    (forall i j, splits (fun u => comp u v) xs i -> splits (fun u => negb (comp v u)) xs j ->
       Q (tpos (t_hdr o) xs i, tpos (t_hdr o) xs j) w) ->
    runs (equal_range comp o k) w Q.
  Proof.
    intros Hswo Hs Hk HQ. unfold equal_range. rbind. eapply runs_root; [by eapply sin_hdr|].
    rbind. apply runs_tree_fuel. destruct Hs as (Ht & He & Hrb & Ha). subst xs.
    pose proof (asc_down_lower comp Hswo _ v Ha) as Hd. pose proof (asc_down_upper comp Hswo _ v Ha) as Hd'.
    eapply (equal_range_loop_spec comp (t_alloc o) (t_hdr o) _ _ _ _ _ Top); [exact Ht|by apply rd_reads|by eapply tin_fits|by eapply tin_fits|done|exact Hd|exact Hd'|].
    destruct (skip_splits _ _ Hd) as (i & -> & Hi). destruct (skip_splits _ _ Hd') as (j & -> & Hj).
    unfold t_end. rewrite <-!tpos_first. auto.
  Qed.

  (** at most one element is equivalent to [v] *)
  Lemma splits_eq o xs h hf t v i j :
    swo comp -> sin o xs h hf t ->
    splits (fun u => comp u v) xs i -> splits (fun u => negb (comp v u)) xs j ->
    (i = j /\ (forall p, p ∈ xs -> comp p.2 v = true \/ comp v p.2 = true)) \/
    (j = S i /\ exists a u, xs !! i = Some (a, u) /\ comp u v = false /\ comp v u = false).
  Proof.
    intros Hswo (_ & _ & _ & Ha) [Hli Hi] [Hlj Hj].
    assert (i <= j) as Hij.
    { destruct (decide (i <= j)) as [|Hn]; [done|]. exfalso.
      assert (exists y, xs !! j = Some y) as [[a u] Hy]. { apply lookup_lt_is_Some. lia. }
      pose proof (Hi _ _ _ Hy) as H1. rewrite bool_decide_true in H1 by lia.
      pose proof (Hj _ _ _ Hy) as H2. rewrite bool_decide_false in H2 by lia.
      apply comp_asym in H1; [|done]. by rewrite H1 in H2. }
    assert (forall m a u, xs !! m = Some (a, u) -> i <= m -> m < j -> comp u v = false /\ comp v u = false) as Heq.
    { intros m a u Hm H1 H2. pose proof (Hi _ _ _ Hm) as H3. rewrite bool_decide_false in H3 by lia.
      pose proof (Hj _ _ _ Hm) as H4. rewrite bool_decide_true in H4 by lia. apply negb_true_iff in H4. done. }
    destruct (decide (i = j)) as [<-|Hne].
    - left. split; [done|]. intros [a u] Hp. apply elem_of_list_lookup in Hp as [m Hm]. simpl.
      rewrite (Hi _ _ _ Hm). destruct (decide (m < i)); [left; by apply bool_decide_true|right].
      pose proof (Hj _ _ _ Hm) as H1. rewrite bool_decide_false in H1 by lia. by apply negb_false_iff in H1.
    - right. assert (exists y, xs !! i = Some y) as [[a u] Hy]. { apply lookup_lt_is_Some. lia. }
      destruct (Heq _ _ _ Hy) as [H1 H2]; [lia|lia|]. split; [|by exists a, u].
      destruct (decide (j = S i)) as [|Hn]; [done|]. exfalso.
      assert (exists y, xs !! S i = Some y) as [[a' u'] Hy']. { apply lookup_lt_is_Some. lia. }
      destruct (Heq _ _ _ Hy') as [H3 H4]; [lia|lia|].
      assert (comp u u' = true) as Huu.
      { apply asc_ascending in Ha. apply (Ha i (S i)); [lia| |]; rewrite list_lookup_fmap; [by rewrite Hy|by rewrite Hy']. }
      destruct Hswo as (_ & _ & Hs). destruct (Hs _ _ v Huu); congruence.
  Qed.

  Lemma find_spec o xs t hf k v w (Q : addr -> W -> Prop) :
    swo comp -> sin o xs (w_heap w) hf t -> rd (w_heap w) k v ->
    (forall i a u, xs !! i = Some (a, u) -> comp u v = false -> comp v u = false -> Q a w) ->
    ((forall p, p ∈ xs -> comp p.2 v = true \/ comp v p.2 = true) -> Q (t_hdr o) w) ->
    runs (t_find comp o k) w Q.
  Proof.
    intros Hswo Hs Hk Hin Hout. unfold t_find, t_end. rbind. eapply lower_bound_spec; [done|exact Hs|exact Hk|].
    intros i Hi. pose proof Hs as (Ht & He & Hrb & Ha).
    assert (exists j, splits (fun u => negb (comp v u)) xs j) as [j Hj].
    { destruct (skip_splits _ _ (asc_down_upper comp Hswo _ v Ha)) as (j & _ & Hj). eauto. }
    pose proof (splits_eq _ _ _ _ _ _ _ _ Hswo Hs Hi Hj) as Hcase.
    destruct (decide (tpos (t_hdr o) xs i = t_hdr o)) as [Heq|Hne].
    - apply runs_ret. destruct Hcase as [[_ Hall]|(_ & a & u & Hu & H1 & H2)]; [auto|].
      exfalso. eapply tpos_ne; [exact Hs| |exact Heq]. by eapply lookup_lt_Some.
    - assert (exists a u, xs !! i = Some (a, u)) as (a & u & Hu).
      { destruct (xs !! i) as [[a u]|] eqn:Hx; [eauto|]. exfalso. apply Hne, tpos_end. by apply lookup_ge_None. }
      rewrite (tpos_some _ _ _ _ _ Hu). rbind. apply (rd_reads _ _ v); [done|].
      pose proof Hu as Hu'. rewrite <-He in Hu'. destruct (find_ctx t i a u Hu') as (kk & c & l & r & Hp & _). rewrite Hp in Ht.
      rbind. eapply runs_tread_node; [exact Ht|]. pose proof (proj2 Hi _ _ _ Hu) as Hlow. simpl in Hlow.
      rewrite bool_decide_false in Hlow by lia.
      destruct (comp v u) eqn:Ec; apply runs_ret; [|by eapply Hin].
      destruct Hcase as [[_ Hall]|(_ & a' & u' & Hx & H1 & H2)]; [auto|]. congruence.
  Qed.

  Lemma distance_spec o xs t hf i j fuel w (Q : nat -> W -> Prop) :
    sin o xs (w_heap w) hf t -> i <= j -> j <= length xs -> j - i < fuel ->
    Q (j - i) w -> runs (distance fuel (tpos (t_hdr o) xs i) (tpos (t_hdr o) xs j)) w Q.
  Proof.
    intros Hs. revert i Q. induction fuel as [|fuel IH]; intros i Q Hij Hj Hf HQ; [lia|]. simpl.
    destruct (decide (tpos (t_hdr o) xs i = tpos (t_hdr o) xs j)) as [Heq|Hne].
    - apply (tpos_inj o xs i j) in Heq as ->; [|by eapply sin_nodup|lia|lia]. rewrite Nat.sub_diag in HQ. by apply runs_ret.
    - assert (i <> j) by congruence. rbind. eapply runs_inc; [exact Hs|lia|]. rbind. eapply (IH (S i)); [lia|lia|lia|].
      apply runs_ret. by replace (S (j - S i)) with (j - i) by lia.
  Qed.
  Lemma count_spec o xs t hf k v w (Q : nat -> W -> Prop) :
    swo comp -> sin o xs (w_heap w) hf t -> rd (w_heap w) k v ->
    ((exists p, p ∈ xs /\ comp p.2 v = false /\ comp v p.2 = false) -> Q 1 w) ->
    ((forall p, p ∈ xs -> comp p.2 v = true \/ comp v p.2 = true) -> Q 0 w) ->
    runs (t_count comp o k) w Q.
  Proof.
    intros Hswo Hs Hk H1 H0. unfold t_count. rbind. eapply equal_range_spec; [done|exact Hs|exact Hk|].
    intros i j Hi Hj. rbind. apply runs_cell_fuel.
    assert (length xs < size (w_heap w)) as Hf.
    { destruct Hs as (Ht & He & _). pose proof (fuel_bound _ _ _ _ _ _ _ _ Ht). by rewrite He in *. }
    destruct (splits_eq _ _ _ _ _ _ _ _ Hswo Hs Hi Hj) as [[<- Hall]|(-> & a & u & Hu & Hlt & Hgt)].
    - destruct Hi as [Hi _]. eapply distance_spec; [exact Hs|done|done|lia|]. rewrite Nat.sub_diag. auto.
    - destruct Hj as [Hj _]. eapply distance_spec; [exact Hs|lia|done|lia|]. replace (S i - i) with 1 by lia.
      apply H1. exists (a, u). split; [by eapply elem_of_list_lookup_2|done].
  Qed.

  (** ** Removal *)

  Lemma asc_del xs i : asc comp xs -> asc comp (take i xs ++ drop (S i) xs).
  Proof.
    intros Ha. rewrite <-(take_drop i xs) in Ha. apply asc_app in Ha as (H1 & H2 & H3).
    assert (drop (S i) xs = drop 1 (drop i xs)) as -> by (rewrite drop_drop; f_equal; lia).
    destruct (drop i xs) as [|q X]; simpl in *; [by rewrite app_nil_r|]. rewrite drop_0. apply asc_app. split_and!; [done|apply H2|].
    intros p r Hp Hr. apply H3; set_solver.
  Qed.

  Lemma erase_aux_spec o xs t hf i w (Q : unit -> W -> Prop) :
    sin o xs (w_heap w) hf t -> i < length xs ->
    (forall h' t', sin o (take i xs ++ drop (S i) xs) h' hf t' -> Q tt (set_heap h' w)) ->
    runs (erase_aux cf o (tpos (t_hdr o) xs i)) w Q.
  Proof.
    intros (Ht & He & Hrb & Ha) Hi HQ. subst xs. pose proof (asc_del _ i Ha) as Ha'.
    apply lookup_lt_is_Some in Hi as [[z v] Hz].
    rewrite (tpos_some _ _ _ _ _ Hz). pose proof (lookup_lt_Some _ _ _ Hz) as Hlt.
    destruct (find_ctx t i z v Hz) as (k & c & l & r & Hp & Hpre & Hpost).
    unfold erase_aux. rbind. rewrite Hp in Ht, Hrb. eapply rebalance_erase_spec; [exact Ht|done|].
    assert (hf !! z = None) as Hfz.
    { apply (tin_none _ _ _ _ _ _ _ _ Ht). rewrite elems_plug, !fmap_app. simpl. rewrite fmap_app. simpl. set_solver. }
    rewrite <-Hp in *. rewrite Hpre, Hpost. intros h' t' c' p a b HE Ht' Hrb'.
    assert (h' !! z = Some (ncell (t_alloc o) c' p a b v)) as Hc.
    { rewrite (tin_out _ _ _ _ _ _ _ _ Ht'), lookup_insert; [done|].
      intros Hin. apply (tin_none _ _ _ _ _ _ _ _ Ht') in Hin. by rewrite lookup_insert in Hin. }
    rbind. eapply destroy_node_spec; [exact Hc|done|]. simpl.
    eapply tin_frame_free in Ht'; [|apply lookup_insert]. rewrite delete_insert in Ht' by done.
    rbind. eapply runs_get_count; [exact (tin_hdr _ _ _ _ _ _ _ _ Ht')|].
    assert (length (elems t) = S (length (elems t'))) as Hlen.
    { rewrite HE, app_length, take_length, drop_length. lia. }
    rewrite Hlen. eapply runs_set_count; [exact (tin_hdr _ _ _ _ _ _ _ _ Ht')|]. unfold set_heap; simpl.
    eapply (HQ _ t'). split_and!; [|done|done|done]. rewrite <-HE. eapply tin_sethdr. exact Ht'.
  Qed.
  Lemma erase_spec o xs t hf i w (Q : addr -> W -> Prop) :
    sin o xs (w_heap w) hf t -> i < length xs ->
    (forall h' t', sin o (take i xs ++ drop (S i) xs) h' hf t' -> Q (tpos (t_hdr o) xs (S i)) (set_heap h' w)) ->
    runs (t_erase cf o (tpos (t_hdr o) xs i)) w Q.
  Proof.
    intros Hs Hi HQ. unfold t_erase. rbind. eapply runs_inc; [exact Hs|done|].
    rbind. eapply erase_aux_spec; [exact Hs|done|]. intros h' t' Hs'. apply runs_ret. by eapply HQ.
  Qed.

  Lemma erase_range_loop_spec o xs t hf i j fuel w (Q : unit -> W -> Prop) :
    sin o xs (w_heap w) hf t -> i <= j -> j <= length xs -> j - i < fuel ->
    (forall h' t', sin o (take i xs ++ drop j xs) h' hf t' -> Q tt (set_heap h' w)) ->
    runs (erase_range_loop cf fuel o (tpos (t_hdr o) xs i) (tpos (t_hdr o) xs j)) w Q.
  Proof.
    revert j xs t w Q. induction fuel as [|fuel IH]; intros j xs t w Q Hs Hij Hj Hf HQ; [lia|]. simpl.
    destruct (decide (tpos (t_hdr o) xs i = tpos (t_hdr o) xs j)) as [Heq|Hne].
    - apply (tpos_inj o xs i j) in Heq as ->; [|by eapply sin_nodup|lia|lia].
      apply runs_ret. rewrite take_drop in HQ. specialize (HQ (w_heap w) t Hs). by destruct w.
    - assert (i <> j) by congruence. rbind. eapply runs_inc; [exact Hs|lia|].
      rbind. eapply erase_spec; [exact Hs|lia|]. intros h' t' Hs'. destruct j as [|j]; [lia|].
      rewrite <-!(tpos_del (t_hdr o) xs i) by lia.
      eapply IH; [exact Hs'|lia|rewrite app_length, take_length, drop_length; lia|lia|].
      intros h'' t'' Hs''. unfold set_heap; simpl. eapply (HQ _ t'').
      rewrite take_app_le, take_take, Nat.min_id in Hs'' by (rewrite take_length; lia).
      rewrite drop_app_ge in Hs'' by (rewrite take_length; lia). rewrite take_length, drop_drop in Hs''.
      by replace (S i + (j - i `min` length xs)) with (S j) in Hs'' by lia.
  Qed.

  (** ** Removing everything *)

  Lemma erase_sub_spec o fuel h p s w (Q : unit -> W -> Prop) :
    h = w_heap w -> tree_at (t_alloc o) h p s -> NoDup (addrs s) -> height s < fuel ->
    (forall h', (forall a, a ∈ addrs s -> h' !! a = None) -> (forall a, a ∉ addrs s -> h' !! a = h !! a) ->
       Q tt (set_heap h' w)) ->
    runs (erase_sub fuel o (root s)) w Q.
  Proof.
    revert h p s w Q. induction fuel as [|fuel IH]; intros h p s w Q -> Ht Hn Hf HQ; [lia|].
    destruct s as [|c a v l r].
    - apply runs_ret. specialize (HQ (w_heap w)). destruct w; apply HQ; [set_solver|done].
    - simpl in Hf. destruct Ht as (Ha & Hl & Hr). simpl root. simpl erase_sub.
      rbind. eapply (runs_get_child (t_alloc o) DR); [exact Ha|].
      simpl in Hn. rewrite fmap_app in Hn. csimpl in Hn.
      assert (a ∉ addrs l /\ a ∉ addrs r /\ (forall x, x ∈ addrs l -> x ∉ addrs r) /\ NoDup (addrs l) /\ NoDup (addrs r)) as (Hal & Har & Hlr & Hnl & Hnr).
      { apply NoDup_app in Hn as (H1 & H2 & H3). apply NoDup_cons in H3 as [H3 H4]. split_and!; [|done| |done|done].
        - intros Hx. apply (H2 _ Hx). set_solver.
        - intros x Hx Hx'. apply (H2 _ Hx). set_solver. }
      rbind. eapply IH; [done|exact Hr|done|lia|]. intros h1 H1 H1'.
      assert (h1 !! a = w_heap w !! a) as Ha1 by auto. rewrite Ha in Ha1.
      rbind. eapply (runs_get_child (t_alloc o) DL); [exact Ha1|].
      rbind. eapply destroy_node_spec; [exact Ha1|done|]. simpl.
      eapply (IH (delete a h1) a); [done| |done|lia|].
      + eapply tat_ext; [|exact Hl]. intros x Hx. rewrite lookup_delete_ne by congruence. auto.
      + intros h2 H2 H2'. unfold set_heap; simpl. apply HQ.
        * intros x. simpl. rewrite fmap_app. csimpl. intros [Hx|[->|Hx]%elem_of_cons]%elem_of_app; [auto| |].
          -- rewrite H2' by done. apply lookup_delete.
          -- rewrite H2' by (intros Hx'; by eapply Hlr). rewrite lookup_delete_ne by congruence. auto.
        * intros x. simpl. rewrite fmap_app. csimpl. intros Hx.
          assert (x ∉ addrs l /\ x <> a /\ x ∉ addrs r) as (? & ? & ?) by set_solver.
          rewrite H2' by done. rewrite lookup_delete_ne by done. auto.
  Qed.

  Lemma tree_height_fuel o xs h hf t : sin o xs h hf t -> height t < rounds (size h).
  Proof. intros (Ht & _ & Hrb & _). by eapply tin_fits. Qed.

  Lemma m_erase_all_spec o xs t hf w (Q : unit -> W -> Prop) :
    sin o xs (w_heap w) hf t ->
    (forall h' lm rm n, h' !! t_hdr o = Some (hcell (root t) lm rm n) -> hf !! t_hdr o = None ->
       (forall a, a <> t_hdr o -> h' !! a = hf !! a) -> Q tt (set_heap h' w)) ->
    runs (m_erase o (root t)) w Q.
  Proof.
    intros Hs HQ. unfold m_erase. rbind. apply runs_tree_fuel.
    pose proof (tree_height_fuel _ _ _ _ _ Hs) as Hf. destruct Hs as ([Hh Ht Hn Hout Hnone] & He & _).
    apply NoDup_cons in Hn as [Hn1 Hn2].
    eapply erase_sub_spec; [done|exact Ht|done|done|]. intros h' H1 H2. eapply HQ.
    - rewrite H2 by done. exact Hh.
    - apply Hnone. by left.
    - intros a Ha. destruct (decide (a ∈ addrs t)) as [Hx|Hx].
      + rewrite H1 by done. symmetry. apply Hnone. by right.
      + rewrite H2 by done. apply Hout. rewrite elem_of_cons. by intros [?|?].
  Qed.

  Lemma sin_empty o h hf : h !! t_hdr o = Some (hcell None (t_hdr o) (t_hdr o) 0) -> hf !! t_hdr o = None ->
    (forall a, a <> t_hdr o -> h !! a = hf !! a) -> sin o [] h hf Leaf.
  Proof.
    intros Hh Hf Hout. split_and!; [split|done| |done].
    - exact Hh.
    - done.
    - apply NoDup_singleton.
    - intros a Ha. apply Hout. simpl in Ha. set_solver.
    - intros a Ha. simpl in Ha. apply elem_of_list_singleton in Ha as ->. done.
    - split_and!; [done|done|by exists 0].
  Qed.

  Lemma clear_spec o xs t hf w (Q : unit -> W -> Prop) :
    sin o xs (w_heap w) hf t ->
    (forall h', sin o [] h' hf Leaf -> Q tt (set_heap h' w)) ->
    runs (t_clear o) w Q.
  Proof.
    intros Hs HQ. unfold t_clear. rbind. eapply runs_root; [by eapply sin_hdr|].
    rbind. eapply m_erase_all_spec; [exact Hs|]. intros h' lm rm n Hh Hf Hout.
    rbind. eapply (runs_set_lm (t_hdr o)); [exact Hh|]. rbind. eapply (runs_set_root); [simpl; apply lookup_insert|].
    rbind. eapply (runs_set_rm (t_hdr o)); [simpl; apply lookup_insert|].
    eapply runs_set_count; [simpl; apply lookup_insert|]. simpl. rewrite !insert_insert. unfold set_heap; simpl.
    apply HQ. apply sin_empty; [apply lookup_insert|done|]. intros a Ha. rewrite lookup_insert_ne by done. auto.
  Qed.

  Lemma destroy_spec o xs t hf w (Q : unit -> W -> Prop) :
    sin o xs (w_heap w) hf t -> Q tt (set_heap hf w) -> runs (t_destroy o) w Q.
  Proof.
    intros Hs HQ. unfold t_destroy. rbind. eapply runs_root; [by eapply sin_hdr|].
    rbind. eapply m_erase_all_spec; [exact Hs|]. intros h' lm rm n Hh Hf Hout.
    eapply runs_free_cell; [exact Hh|]. simpl. unfold set_heap; simpl.
    assert (delete (t_hdr o) h' = hf) as ->; [|done]. apply map_eq. intros a.
    destruct (decide (a = t_hdr o)) as [->|]; [by rewrite lookup_delete|]. rewrite lookup_delete_ne by done. auto.
  Qed.

  Lemma new_spec al w (Q : tset -> W -> Prop) :
    (forall a h', w_heap w !! a = None -> sin (TSet al a) [] h' (w_heap w) Leaf -> Q (TSet al a) (set_heap h' w)) ->
    runs (tset_new al) w Q.
  Proof.
    intros HQ. unfold tset_new. rbind. apply runs_new_local. intros a Ha.
    unfold set_color, set_parent, set_left, set_right. 
    rbind. rbind. eapply runs_load; [simpl; apply lookup_insert|]. eapply runs_store; [simpl; apply lookup_insert|].
    rbind. rbind. eapply runs_load; [simpl; apply lookup_insert|]. eapply runs_store; [simpl; apply lookup_insert|].
    rbind. rbind. eapply runs_load; [simpl; apply lookup_insert|]. eapply runs_store; [simpl; apply lookup_insert|].
    rbind. rbind. eapply runs_load; [simpl; apply lookup_insert|]. eapply runs_store; [simpl; apply lookup_insert|].
    apply runs_ret. simpl. unfold set_heap; simpl. rewrite !insert_insert. apply HQ; [done|].
    apply sin_empty; simpl; [apply lookup_insert|done|]. intros b Hb. by rewrite lookup_insert_ne.
  Qed.

  Lemma erase_range_spec o xs t hf i j w (Q : addr -> W -> Prop) :
    sin o xs (w_heap w) hf t -> i <= j -> j <= length xs ->
    (forall h' t', sin o (take i xs ++ drop j xs) h' hf t' -> Q (tpos (t_hdr o) xs j) (set_heap h' w)) ->
    runs (t_erase_range cf o (tpos (t_hdr o) xs i) (tpos (t_hdr o) xs j)) w Q.
  Proof.
    intros Hs Hij Hj HQ. unfold t_erase_range. rbind. eapply begin_spec; [exact Hs|].
    destruct (decide (_ /\ _)) as [[H1 H2]|Hn].
    - pose proof (sin_nodup _ _ _ _ _ Hs) as Hnd. apply (tpos_inj o xs i 0) in H1 as ->; [|done|lia|lia].
      assert (tpos (t_hdr o) xs j = tpos (t_hdr o) xs (length xs)) as H2' by (by rewrite (tpos_end _ xs (length xs))).
      clear H2. rename H2' into H2. apply (tpos_inj o xs j (length xs)) in H2 as ->; [|done|lia|lia].
      rewrite drop_all in HQ. simpl in HQ. rbind. eapply clear_spec; [exact Hs|]. intros h' Hs'. apply runs_ret. by eapply HQ.
    - rbind. rbind. apply runs_cell_fuel. eapply erase_range_loop_spec; [exact Hs|done|done| |].
      { destruct Hs as (Ht & He & _). pose proof (fuel_bound _ _ _ _ _ _ _ _ Ht). rewrite He in *. lia. }
      intros h' t' Hs'. apply runs_ret. by eapply HQ.
  Qed.

  Lemma erase_key_spec o xs t hf k v w (Q : nat -> W -> Prop) :
    swo comp -> sin o xs (w_heap w) hf t -> rd (w_heap w) k v ->
    (forall i a u h' t', xs !! i = Some (a, u) -> comp u v = false -> comp v u = false ->
       sin o (take i xs ++ drop (S i) xs) h' hf t' -> Q 1 (set_heap h' w)) ->
    (forall h' t', (forall p, p ∈ xs -> comp p.2 v = true \/ comp v p.2 = true) ->
       sin o xs h' hf t' -> Q 0 (set_heap h' w)) ->
    runs (t_erase_key cf comp o k) w Q.
  Proof.
    intros Hswo Hs Hk H1 H0. unfold t_erase_key. rbind. eapply equal_range_spec; [done|exact Hs|exact Hk|].
    intros i j Hi Hj. rbind. eapply size_spec; [exact Hs|]. rbind. 
    destruct (splits_eq _ _ _ _ _ _ _ _ Hswo Hs Hi Hj) as [[<- Hall]|(-> & a & u & Hu & Hlt & Hgt)].
    - destruct Hi as [Hi _]. eapply erase_range_spec; [exact Hs|done|done|]. intros h' t' Hs'. rewrite take_drop in Hs'.
      rbind. eapply size_spec; [exact Hs'|]. apply runs_ret. rewrite Nat.sub_diag. eauto.
    - destruct Hj as [Hj _]. eapply erase_range_spec; [exact Hs|lia|done|]. intros h' t' Hs'.
      rbind. eapply size_spec; [exact Hs'|]. apply runs_ret.
      replace (length xs - length (take i xs ++ drop (S i) xs)) with 1; [eauto|].
      rewrite app_length, take_length, drop_length. lia.
  Qed.
End query.
