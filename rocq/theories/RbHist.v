(** * Histories of set operations: proofs *)
From Verif Require Export RbMove RbHistSpec ListHist.

#[global] Arguments exec_sop : simpl never.

Section hist.
  Context {V : Type} {LL : limit} (cf : cfg V) (comp : V -> V -> bool).
  Notation H := (gmap addr (tcell V)).
  Notation W := (world (tcell V)).
  Notation E := (addr * V)%type.
  Notation L := (list (addr * list E)).
  Implicit Types hv hf hr : H.
  Implicit Types w : W.
  Implicit Types xs ys : list E.
  Implicit Types R : L.
  Implicit Types xss : list (list E).
  Notation al := (c_dflt cf).
  Notation sin := (sin comp).
  Notation own := (sets_own comp al).
  Notation set h := (TSet al h).

  (** ** Rows of sets *)

  Lemma own_swap x y R hv : own (x :: y :: R) hv -> own (y :: x :: R) hv.
  Proof.
    destruct x as [hx xs], y as [hy ys]. simpl. intros (h1 & h2 & -> & Hd & Hx & h3 & h4 & -> & Hd' & Hy & HR).
    apply map_disjoint_union_r in Hd as [Hd1 Hd2]. exists h3, (h1 ∪ h4). split_and!.
    - rewrite !(assoc_L (∪)). f_equal. by apply map_union_comm.
    - apply map_disjoint_union_r. split; [by symmetry|done].
    - done.
    - exists h1, h4. split_and!; done.
  Qed.
  Lemma sown_perm R R' hv : R ≡ₚ R' -> own R hv -> own R' hv.
  Proof.
    intros HR. revert hv. induction HR as [|[hx xs] R R' HR IH|x y R|R1 R2 R3 H1 IH1 H2 IH2]; intros hv Ho.
    - done.
    - destruct Ho as (h1 & h2 & ? & ? & ? & Ho). exists h1, h2. split_and!; try done. by apply IH.
    - by apply own_swap.
    - by apply IH2, IH1.
  Qed.

  Definition srow (hds : list addr) xss hv : Prop := length hds = length xss /\ own (zip hds xss) hv.
  Notation objs hds := (TSet al <$> hds).

  Lemma own_get h x R hv hf w :
    own ((h, x) :: R) hv -> heap_is w hv hf ->
    exists hr t, own R hr /\ hr ##ₘ hf /\ sin (set h) x (w_heap w) (hr ∪ hf) t.
  Proof.
    intros (h1 & h2 & -> & Hd & Ho & HR) [Hw Hdf]. apply map_disjoint_union_l in Hdf as [Hd1 Hd2].
    destruct (proj1 (set_is_sin comp (set h) x (h2 ∪ hf) w)) as [t Ht].
    { exists h1. split; [done|]. split; [by rewrite (assoc_L (∪))|]. by apply map_disjoint_union_r. }
    by exists h2, t.
  Qed.
  Lemma own_put h x R hr hf w t :
    own R hr -> hr ##ₘ hf -> sin (set h) x (w_heap w) (hr ∪ hf) t ->
    exists hv, own ((h, x) :: R) hv /\ heap_is w hv hf.
  Proof.
    intros HR Hd Hs. destruct (proj2 (set_is_sin comp (set h) x (hr ∪ hf) w)) as (h1 & Ho & Hw & Hd'); [by exists t|].
    apply map_disjoint_union_r in Hd' as [Hd1 Hd2]. exists (h1 ∪ hr). split.
    - exists h1, hr. done.
    - split; [by rewrite <-(assoc_L (∪))|]. by apply map_disjoint_union_l.
  Qed.
  Lemma own_get2 h x h2 y R hv hf w :
    own ((h, x) :: (h2, y) :: R) hv -> heap_is w hv hf ->
    exists hr, own R hr /\ hr ##ₘ hf /\ pair_is comp (set h) x (set h2) y (w_heap w) (hr ∪ hf).
  Proof.
    intros Ho Hh. destruct (own_get _ _ _ _ _ _ Ho Hh) as (hr & t & (h3 & h4 & -> & Hd & Ho2 & HR) & Hdf & Hs).
    apply map_disjoint_union_l in Hdf as [Hd1 Hd2]. exists h4. split_and!; [done|done|].
    exists h3, t. split_and!; [done|by apply map_disjoint_union_r|]. by rewrite (assoc_L (∪)).
  Qed.
  Lemma own_put2 h x h2 y R hr hf w :
    own R hr -> hr ##ₘ hf -> pair_is comp (set h) x (set h2) y (w_heap w) (hr ∪ hf) ->
    exists hv, own ((h, x) :: (h2, y) :: R) hv /\ heap_is w hv hf.
  Proof.
    intros HR Hd (h3 & t & Ho2 & Hd3 & Hs). simpl in Ho2. apply map_disjoint_union_r in Hd3 as [Hd3 Hd4].
    eapply (own_put _ _ _ (h3 ∪ hr) _ _ t).
    - exists h3, hr. split_and!; done.
    - by apply map_disjoint_union_l.
    - by rewrite <-(assoc_L (∪)).
  Qed.
  Lemma own_there o xs hv hf : set_own comp (t_alloc o) (t_hdr o) xs hv -> there comp o xs (hv ∪ hf).
  Proof.
    intros (Ha & t & <- & Hh & Ht & Hn & Hdom & Hrb). exists t. split_and!; try done.
    - by apply lookup_union_Some_l.
    - eapply tat_ext; [|exact Ht]. intros a Hin. destruct (proj2 (Hdom a)) as [c Hc]; [by right|].
      rewrite Hc. by apply lookup_union_Some_l.
    - by apply asc_ascending.
    - by apply NoDup_cons in Hn as [_ ?].
  Qed.

  Lemma srow_lookup hds xss hv i h : srow hds xss hv -> hds !! i = Some h -> exists x, xss !! i = Some x.
  Proof. intros [Hl _] Hi. apply lookup_lt_is_Some. rewrite <-Hl. by eapply lookup_lt_Some. Qed.
  Lemma srow_none hds xss hv i : srow hds xss hv -> hds !! i = None -> xss !! i = None.
  Proof. intros [Hl _] Hi. apply lookup_ge_None in Hi. apply lookup_ge_None. lia. Qed.
  Lemma srow_at hds xss hv i h x :
    srow hds xss hv -> hds !! i = Some h -> xss !! i = Some x ->
    exists R, zip hds xss ≡ₚ (h, x) :: R /\ own ((h, x) :: R) hv /\
      forall y hv', own ((h, y) :: R) hv' -> srow hds (<[ i := y ]> xss) hv'.
  Proof.
    intros [Hl Ho] Hh Hx. destruct (get1 _ _ _ _ _ Hh Hx) as (R & HR & HR'). exists R. split; [done|]. split.
    - eapply sown_perm; [|exact Ho]. by rewrite HR.
    - intros y hv' Ho'. split; [by rewrite insert_length|]. eapply sown_perm; [|exact Ho']. by rewrite HR'.
  Qed.

  (** ** Client helpers *)

  Lemma t_step_iter_spec o xs hf t i j w (Q : addr -> W -> Prop) :
    sin o xs (w_heap w) hf t -> Q (tpos (t_hdr o) xs (j + i)) w ->
    runs (t_step_iter (t_end o) (tpos (t_hdr o) xs j) i) w Q.
  Proof.
    intros Hs. revert j. induction i as [|i IH]; intros j HQ; simpl.
    - apply runs_ret. by rewrite Nat.add_0_r in HQ.
    - case_decide as Hj.
      + apply runs_ret. destruct (decide (j < length xs)) as [Hlt|Hge].
        * exfalso. by eapply (tpos_ne comp).
        * rewrite tpos_end in HQ by lia. by rewrite tpos_end by lia.
      + rbind. eapply (RbSet.runs_inc comp); [exact Hs| |].
        * destruct (decide (j < length xs)) as [|Hge]; [done|]. exfalso. apply Hj. unfold t_end. apply tpos_end. lia.
        * apply IH. by replace (S j + i) with (j + S i) by lia.
  Qed.
  Lemma t_iter_at_spec o xs hf t i w (Q : addr -> W -> Prop) :
    sin o xs (w_heap w) hf t -> Q (tpos (t_hdr o) xs i) w -> runs (t_iter_at o i) w Q.
  Proof.
    intros Hs HQ. unfold t_iter_at. rbind. eapply begin_spec; [exact Hs|]. by eapply t_step_iter_spec.
  Qed.
  Lemma sin_cell o xs h hf t i a v : sin o xs h hf t -> xs !! i = Some (a, v) ->
    exists c al, h !! a = Some c /\ tn_body c = TNode al (Some v).
  Proof.
    intros Hs Hi. apply (targ_rd comp o xs h hf t (TARef a) v Hs). left. by eapply elem_of_list_lookup_2.
  Qed.
  Lemma tread_spec o xs hf t i a v w (Q : V -> W -> Prop) :
    sin o xs (w_heap w) hf t -> xs !! i = Some (a, v) -> Q v w -> runs (tread a) w Q.
  Proof.
    intros Hs Hi HQ. destruct (sin_cell _ _ _ _ _ _ _ _ Hs Hi) as (c & al' & Hc & Hb).
    by apply (rd_reads w (TARef a) v); [exists c, al'|].
  Qed.
  Lemma read_iter_spec o xs hf t i w (Q : option V -> W -> Prop) :
    sin o xs (w_heap w) hf t -> Q (xs.*2 !! i) w -> runs (read_iter o (tpos (t_hdr o) xs i)) w Q.
  Proof.
    intros Hs HQ. unfold read_iter. rewrite list_lookup_fmap in HQ. destruct (xs !! i) as [[a v]|] eqn:Ei.
    - rewrite decide_False by (eapply (tpos_ne comp); [done|by eapply lookup_lt_Some]).
      rbind. erewrite tpos_some by done. eapply tread_spec; [done..|]. by apply runs_ret.
    - apply lookup_ge_None in Ei. rewrite tpos_end by done. rewrite decide_True by done. by apply runs_ret.
  Qed.
  Lemma read_iter_at o xs hf t i a v w (Q : option V -> W -> Prop) :
    sin o xs (w_heap w) hf t -> xs !! i = Some (a, v) -> Q (Some v) w -> runs (read_iter o a) w Q.
  Proof.
    intros Hs Hi HQ. rewrite <-(tpos_some (t_hdr o) _ _ _ _ Hi). eapply read_iter_spec; [done|].
    by rewrite list_lookup_fmap, Hi.
  Qed.

  Lemma t_get_arg_spec hds xss w hv hf x (Q : _ -> W -> Prop) :
    srow hds xss hv -> heap_is w hv hf ->
    (hval_of (vals xss) x = None -> Q None w) ->
    (forall a v, hval_of (vals xss) x = Some v -> rd (w_heap w) a v -> Q (Some a) w) ->
    runs (t_get_arg (objs hds) x) w Q.
  Proof.
    intros Hr Hh Hn Hs. destruct x as [v|j q]; simpl; [apply runs_ret; by eapply Hs|].
    rewrite list_lookup_fmap. destruct (hds !! j) as [h|] eqn:Ej; simpl.
    - destruct (srow_lookup _ _ _ _ _ Hr Ej) as [xs Hxs].
      destruct (srow_at _ _ _ _ _ _ Hr Ej Hxs) as (R & HR & Ho1 & _).
      destruct (own_get _ _ _ _ _ _ Ho1 Hh) as (hr & t & _ & _ & Hsin).
      rbind. eapply t_iter_at_spec; [exact Hsin|]. simpl in Hn, Hs. rewrite vals_lookup, Hxs in Hn, Hs. simpl in Hn, Hs.
      rewrite list_lookup_fmap in Hn, Hs. destruct (xs !! q) as [[a v]|] eqn:Eq; simpl in Hn, Hs.
      + rewrite decide_False by (eapply (tpos_ne comp); [done|by eapply lookup_lt_Some]).
        apply runs_ret. erewrite tpos_some by done. eapply Hs; [done|]. by eapply sin_cell.
      + apply lookup_ge_None in Eq. rewrite tpos_end by done. rewrite decide_True by done. apply runs_ret. by apply Hn.
    - apply runs_ret. apply Hn. simpl. by rewrite vals_lookup, (srow_none _ _ _ _ Hr Ej).
  Qed.

  (** ** One call *)

  Definition sop_post op hds xss hf (a : sans V) w' : Prop :=
    exists xss' hv', srow hds xss' hv' /\ heap_is w' hv' hf /\
      sop_spec comp op (vals xss) (w_err w') a (vals xss') /\
      forall p, p ∈ concat xss -> sop_kills comp op xss p \/ p ∈ concat xss'.

  Lemma spost_same op hds xss hv hf a w' :
    srow hds xss hv -> heap_is w' hv hf -> sop_spec comp op (vals xss) (w_err w') a (vals xss) ->
    sop_post op hds xss hf a w'.
  Proof. intros Hr Hh Hs. exists xss, hv. split_and!; try done. intros p Hp. by right. Qed.

  Lemma with_set_none (hds : list addr) i (k : tset -> M (tcell V) (sans V)) :
    hds !! i = None -> with_set (objs hds) i k = ret AnsNone.
  Proof. intros Hi. unfold with_set. by rewrite list_lookup_fmap, Hi. Qed.
  Lemma with_set_some (hds : list addr) i h (k : tset -> M (tcell V) (sans V)) :
    hds !! i = Some h -> with_set (objs hds) i k = k (set h).
  Proof. intros Hi. unfold with_set. by rewrite list_lookup_fmap, Hi. Qed.

  (** Change one set. *)
  Lemma sexec_one op hds xss hv hf w i k :
    srow hds xss hv -> heap_is w hv hf -> w_err w = None ->
    (vals xss !! i = None -> sop_spec comp op (vals xss) None AnsNone (vals xss)) ->
    (forall h xs hr t, hds !! i = Some h -> xss !! i = Some xs ->
       sin (set h) xs (w_heap w) (hr ∪ hf) t ->
       (forall ys t' w' a, sin (set h) ys (w_heap w') (hr ∪ hf) t' ->
          sop_spec comp op (vals xss) (w_err w') a (<[ i := ys.*2 ]> (vals xss)) ->
          (forall p, p ∈ xs -> sop_kills comp op xss p \/ p ∈ ys) -> sop_post op hds xss hf a w') ->
       runs (k (set h)) w (sop_post op hds xss hf)) ->
    runs (with_set (objs hds) i k) w (sop_post op hds xss hf).
  Proof.
    intros Hr Hh He Hn1 Hk. destruct (hds !! i) as [h|] eqn:Ei.
    - rewrite (with_set_some _ _ _ _ Ei).
      destruct (srow_lookup _ _ _ _ _ Hr Ei) as [xs Hxs].
      destruct (srow_at _ _ _ _ _ _ Hr Ei Hxs) as (R & HR & Ho1 & Hback).
      destruct (own_get _ _ _ _ _ _ Ho1 Hh) as (hr & t & HoR & Hd & Hs). eapply Hk; [done..|].
      intros ys t' w' a Hs' Hsp Hk'. destruct (own_put _ _ _ _ _ _ _ HoR Hd Hs') as (hv' & Ho' & Hh').
      exists (<[ i := ys ]> xss), hv'. split_and!; [by apply Hback|done|by rewrite vals_insert|by eapply kept1].
    - rewrite (with_set_none _ _ _ Ei). apply runs_ret. eapply spost_same; [done..|]. rewrite He. apply Hn1.
      by rewrite vals_lookup, (srow_none _ _ _ _ Hr Ei).
  Qed.
  (** Change one set through a call that takes an element argument. *)
  Lemma sexec_elem op hds xss hv hf w i x k :
    srow hds xss hv -> heap_is w hv hf -> w_err w = None ->
    (vals xss !! i = None -> sop_spec comp op (vals xss) None AnsNone (vals xss)) ->
    (hval_of (vals xss) x = None -> sop_spec comp op (vals xss) None AnsNone (vals xss)) ->
    (forall h xs hr t a v, hds !! i = Some h -> xss !! i = Some xs ->
       sin (set h) xs (w_heap w) (hr ∪ hf) t ->
       hval_of (vals xss) x = Some v -> rd (w_heap w) a v ->
       (forall ys t' w' a, sin (set h) ys (w_heap w') (hr ∪ hf) t' ->
          sop_spec comp op (vals xss) (w_err w') a (<[ i := ys.*2 ]> (vals xss)) ->
          (forall p, p ∈ xs -> sop_kills comp op xss p \/ p ∈ ys) -> sop_post op hds xss hf a w') ->
       runs (k (set h) a) w (sop_post op hds xss hf)) ->
    runs (with_set (objs hds) i (fun o => with_targ (objs hds) x (k o))) w (sop_post op hds xss hf).
  Proof.
    intros Hr Hh He Hn1 Hn2 Hk. eapply sexec_one; [done..|]. intros h xs hr t Hi Hx Hs Hpost.
    unfold with_targ. rbind. eapply t_get_arg_spec; [done..| |].
    - intros Hv. apply runs_ret. eapply spost_same; [done..|]. rewrite He. by apply Hn2.
    - intros a v Hv Hrd. by eapply Hk.
  Qed.
  (** Change two sets, or one with itself. *)
  Lemma sexec_two op hds xss hv hf w i j k :
    srow hds xss hv -> heap_is w hv hf -> w_err w = None ->
    (vals xss !! i = None \/ vals xss !! j = None -> sop_spec comp op (vals xss) None AnsNone (vals xss)) ->
    (forall h xs hr t, i = j -> hds !! i = Some h -> xss !! i = Some xs ->
       sin (set h) xs (w_heap w) (hr ∪ hf) t ->
       (forall ys t' w' a, sin (set h) ys (w_heap w') (hr ∪ hf) t' ->
          sop_spec comp op (vals xss) (w_err w') a (<[ i := ys.*2 ]> (vals xss)) ->
          (forall p, p ∈ xs -> sop_kills comp op xss p \/ p ∈ ys) -> sop_post op hds xss hf a w') ->
       runs (k (set h) (set h)) w (sop_post op hds xss hf)) ->
    (forall h xs h2 xs2 hr, i <> j -> hds !! i = Some h -> xss !! i = Some xs -> hds !! j = Some h2 -> xss !! j = Some xs2 ->
       pair_is comp (set h) xs (set h2) xs2 (w_heap w) (hr ∪ hf) ->
       (forall y z w' a, pair_is comp (set h) y (set h2) z (w_heap w') (hr ∪ hf) ->
          sop_spec comp op (vals xss) (w_err w') a (<[ i := y.*2 ]> (<[ j := z.*2 ]> (vals xss))) ->
          (forall p, p ∈ xs \/ p ∈ xs2 -> (sop_kills comp op xss p) \/ p ∈ y \/ p ∈ z) -> sop_post op hds xss hf a w') ->
       runs (k (set h) (set h2)) w (sop_post op hds xss hf)) ->
    runs (with_set (objs hds) i (fun o => with_set (objs hds) j (k o))) w (sop_post op hds xss hf).
  Proof.
    intros Hr Hh He Hn Hk1 Hk2. destruct (hds !! j) as [h2|] eqn:Ej.
    2: { assert (runs (ret AnsNone) w (sop_post op hds xss hf)) as Hret.
         { apply runs_ret. eapply spost_same; [done..|]. rewrite He. apply Hn. right.
           by rewrite vals_lookup, (srow_none _ _ _ _ Hr Ej). }
         destruct (hds !! i) as [h|] eqn:Ei.
         - by rewrite (with_set_some _ _ _ _ Ei), (with_set_none _ _ _ Ej).
         - by rewrite (with_set_none _ _ _ Ei). }
    destruct (decide (i = j)) as [Hij|Hne].
    { subst j. eapply sexec_one; [done..| |].
      - intros Hnone. apply Hn. by left.
      - intros h xs hr t Hi Hx Hs Hpost. rewrite Ej in Hi. simplify_eq. rewrite (with_set_some _ _ _ _ Ej). by eapply Hk1. }
    destruct (hds !! i) as [h|] eqn:Ei.
    2: { rewrite (with_set_none _ _ _ Ei). apply runs_ret. eapply spost_same; [done..|]. rewrite He. apply Hn. left.
         by rewrite vals_lookup, (srow_none _ _ _ _ Hr Ei). }
    rewrite (with_set_some _ _ _ _ Ei), (with_set_some _ _ _ _ Ej).
    destruct (srow_lookup _ _ _ _ _ Hr Ei) as [xs Hxs]. destruct (srow_lookup _ _ _ _ _ Hr Ej) as [xs2 Hxs2].
    destruct (get2 _ _ _ _ _ _ _ _ Hne Ei Hxs Ej Hxs2) as (R & HR & HR').
    pose proof Hr as [Hl Ho]. assert (own ((h, xs) :: (h2, xs2) :: R) hv) as Ho2 by (eapply sown_perm; [|exact Ho]; by rewrite HR).
    destruct (own_get2 _ _ _ _ _ _ _ _ Ho2 Hh) as (hr & HoR & Hd & Hp).
    eapply Hk2; try done. intros y z w' a Hp' Hs Hk.
    destruct (own_put2 _ _ _ _ _ _ _ _ HoR Hd Hp') as (hv' & Ho' & Hh').
    exists (<[ i := y ]> (<[ j := z ]> xss)), hv'. split_and!; [| done |by rewrite !vals_insert|].
    - split; [by rewrite !insert_length|]. eapply sown_perm; [|exact Ho']. by rewrite HR'.
    - intros p (m & ms & Hm & Hin)%in_rows.
      assert (Hli : i < length xss) by (by eapply lookup_lt_Some). assert (Hlj : j < length xss) by (by eapply lookup_lt_Some).
      assert (Hd' : p ∈ y \/ p ∈ z -> p ∈ concat (<[ i := y ]> (<[ j := z ]> xss))).
      { intros [Hy|Hz]; apply in_rows; [exists i, y|exists j, z]; split; try done.
        - apply list_lookup_insert. by rewrite insert_length.
        - rewrite list_lookup_insert_ne by done. by apply list_lookup_insert. }
      destruct (decide (m = i)) as [->|Hmi]; [|destruct (decide (m = j)) as [->|Hmj]].
      + simplify_eq. destruct (Hk p) as [?|?]; [by left|by left|right; by apply Hd'].
      + simplify_eq. destruct (Hk p) as [?|?]; [by right|by left|right; by apply Hd'].
      + right. apply in_rows. exists m, ms. split; [|done]. by rewrite !list_lookup_insert_ne.
  Qed.

  (** ** Facts about plain lists *)

  Lemma asc_absent pre a v post : asc comp (pre ++ (a, v) :: post) -> absent comp v (pre ++ post).*2.
  Proof.
    intros Hasc u (p & -> & Hp)%elem_of_list_fmap [Hu1 Hu2]. apply asc_ascending in Hasc.
    apply elem_of_app in Hp as [[j Hj]%elem_of_list_lookup|[j Hj]%elem_of_list_lookup].
    - rewrite (Hasc j (length pre) p.2 v) in Hu1; [done|by eapply lookup_lt_Some| |].
      + by rewrite list_lookup_fmap, lookup_app_l, Hj by (by eapply lookup_lt_Some).
      + by rewrite list_lookup_fmap, list_lookup_middle.
    - rewrite (Hasc (length pre) (length pre + S j) v p.2) in Hu2; [done|lia| |].
      + by rewrite list_lookup_fmap, list_lookup_middle.
      + rewrite list_lookup_fmap, lookup_app_r by lia. replace (length pre + S j - length pre) with (S j) by lia. simpl. by rewrite Hj.
  Qed.
  Lemma put_new o pre a v post h hf t :
    sin o (pre ++ (a, v) :: post) h hf t -> put comp v (pre ++ post).*2 true v (pre ++ (a, v) :: post).*2.
  Proof.
    intros (_ & _ & _ & Hasc). split_and!; [done| |by eapply asc_absent].
    rewrite !fmap_app. csimpl. symmetry. apply Permutation_middle.
  Qed.
  Lemma put_old v xs i a u :
    xs !! i = Some (a, u) -> comp u v = false -> comp v u = false -> put comp v xs.*2 false u xs.*2.
  Proof.
    intros Hi H1 H2. split_and!; [|done|done]. apply elem_of_list_fmap. exists (a, u). split; [done|].
    by eapply elem_of_list_lookup_2.
  Qed.
  Lemma far_absent v xs : (forall p : E, p ∈ xs -> comp p.2 v = true \/ comp v p.2 = true) -> absent comp v xs.*2.
  Proof. intros Hall u (p & -> & Hp)%elem_of_list_fmap [H1 H2]. destruct (Hall p Hp); congruence. Qed.
  Lemma splits_head (p : V -> bool) xs i : splits p xs i -> xs.*2 !! i = head (filter (fun u => p u = false) xs.*2).
  Proof.
    revert i. induction xs as [|[a v] xs IH]; intros i [Hi Hs]; [done|]. csimpl. rewrite filter_cons.
    destruct i as [|i].
    - rewrite decide_True; [done|]. by rewrite (Hs 0 a v).
    - rewrite decide_False by (by rewrite (Hs 0 a v)). apply IH. simpl in Hi. split; [lia|].
      intros j b u Hj. rewrite (Hs (S j) b u) by done. apply bool_decide_ext. lia.
  Qed.
  Lemma vals_same xss i xs : xss !! i = Some xs -> <[ i := xs.*2 ]> (vals xss) = vals xss.
  Proof. intros Hx. apply list_insert_id. by apply vals_at. Qed.
  Lemma keep_ins (pre post : list E) x p : p ∈ pre ++ post -> p ∈ pre ++ x :: post.
  Proof. rewrite !elem_of_app, elem_of_cons. tauto. Qed.
  Lemma keep_del xs i p : p ∈ xs -> xs !! i = Some p \/ p ∈ take i xs ++ drop (S i) xs.
  Proof.
    intros [j Hj]%elem_of_list_lookup. destruct (decide (j = i)) as [->|Hne]; [by left|right].
    apply elem_of_app. destruct (decide (j < i)).
    - left. apply elem_of_list_lookup. exists j. by rewrite lookup_take.
    - right. apply elem_of_list_lookup. exists (j - S i). rewrite lookup_drop. by replace (S i + (j - S i)) with j by lia.
  Qed.
  Lemma keep_del_range xs i j p : i <= j -> p ∈ xs -> (exists q, i <= q < j /\ xs !! q = Some p) \/ p ∈ take i xs ++ drop j xs.
  Proof.
    intros Hij [q Hq]%elem_of_list_lookup. destruct (decide (i <= q < j)) as [|Hne]; [left; eauto|right].
    apply elem_of_app. destruct (decide (q < i)).
    - left. apply elem_of_list_lookup. exists q. by rewrite lookup_take.
    - right. apply elem_of_list_lookup. exists (q - j). rewrite lookup_drop. by replace (j + (q - j)) with q by lia.
  Qed.
  Lemma tpos_clip hdr xs i : tpos hdr xs i = tpos hdr xs (i `min` length xs).
  Proof.
    destruct (decide (i <= length xs)); [by rewrite Nat.min_l|]. rewrite Nat.min_r by lia.
    by rewrite !tpos_end by lia.
  Qed.

  Lemma insert_range_spec vs o xs t hf w (Q : unit -> W -> Prop) :
    swo comp -> sin o xs (w_heap w) hf t -> w_err w = None ->
    (forall ys t' w' n, sin o ys (w_heap w') hf t' -> (forall p, p ∈ xs -> p ∈ ys) ->
       puts comp (take n vs) xs.*2 ys.*2 ->
       match w_err w' with None => length vs <= n | Some e => n < length vs /\ tnode_error cf e end -> Q tt w') ->
    runs (insert_unique_range cf comp o (map TAVal vs)) w Q.
  Proof.
    intros Hswo. revert xs t w. induction vs as [|v vs IH]; intros xs t w Hs He HQ.
    - simpl. apply runs_ret. apply (HQ xs t w 0); [done|done|done|]. by rewrite He.
    - cbn [map insert_unique_range]. rbind. replace (t_end o) with (tpos (t_hdr o) xs (length xs)) by (by apply tpos_end).
      eapply (insert_at_spec cf comp o xs t hf (length xs) (TAVal v) v); [done|done|done|done| | |].
      + intros a pre post h' t' orc -> Ha Hs' _. rbind. apply runs_has_err. simpl.
        eapply IH; [exact Hs'|done|]. intros ys t'' w' n Hs'' Hk Hp Hn. apply (HQ ys t'' w' (S n)); [done| | |].
        * intros p Hp'. apply Hk. by apply keep_ins.
        * simpl. eexists true, v, _. split; [by eapply put_new|done].
        * destruct (w_err w'); simpl; [destruct Hn; split; [lia|done]|lia].
      + intros i a u Hi H1 H2. rbind. apply runs_has_err. rewrite He. simpl. eapply IH; [exact Hs|done|].
        intros ys t'' w' n Hs'' Hk Hp Hn. apply (HQ ys t'' w' (S n)); [done|done| |].
        * simpl. eexists false, u, _. split; [by eapply put_old|done].
        * destruct (w_err w'); simpl; [destruct Hn; split; [lia|done]|lia].
      + intros w' e Hw' He' Hne _ _. rbind. apply runs_has_err. rewrite He'. simpl. apply runs_ret.
        apply (HQ xs t w' 0); [by rewrite Hw'|done|done|]. rewrite He'. simpl. split; [lia|done].
  Qed.

  Lemma move_assign_self_spec o xs t hf w (Q : unit -> W -> Prop) :
    sin o xs (w_heap w) hf t -> (forall h', sin o [] h' hf Leaf -> Q tt (set_heap h' w)) ->
    runs (t_move_assign o o) w Q.
  Proof.
    intros Hs HQ. unfold t_move_assign. rbind. eapply clear_spec; [exact Hs|]. intros h' Hs'.
    rbind. eapply runs_root; [apply (sin_hdr _ _ _ _ _ _ Hs')|]. simpl. apply runs_ret. by apply HQ.
  Qed.

  Lemma runs_exec_sop op hds xss hv hf w :
    swo comp -> srow hds xss hv -> heap_is w hv hf -> w_err w = None ->
    runs (exec_sop cf comp op (objs hds)) w (sop_post op hds xss hf).
  Proof.
    intros Hswo Hr Hh He.
    destruct op as [i x|i p x|i vs|i x|i p x|i x|i p|i p n|i|i j|i j|i j|i x|i x|i x|i x]; unfold exec_sop.
    - (* insert *) eapply sexec_elem; [done..| | |].
      { intros Hi. simpl. by rewrite Hi. } { intros Hx. simpl. rewrite Hx. by destruct (vals xss !! i). }
      intros h xs hr t a v Hi Hx Hs Hv Hrd Hpost. pose proof (vals_at _ _ _ Hx) as Hvi.
      rbind. eapply insert_unique_spec; [done|exact Hs|done|done| | |].
      + intros b pre post h' t' orc -> Hb Hs' _. rbind. eapply (read_iter_at (set h) _ _ _ (length pre)); [exact Hs'|by apply list_lookup_middle|].
        apply runs_ret. eapply Hpost; [exact Hs'| |].
        * simpl. rewrite Hvi, Hv. eexists true, v, _. split_and!; [done|by eapply put_new|done].
        * intros p Hp. right. by apply keep_ins.
      + intros k b u Hk H1 H2. rbind. eapply read_iter_at; [exact Hs|done|]. apply runs_ret. eapply Hpost; [exact Hs| |by right].
        simpl. rewrite Hvi, Hv, He. eexists false, u, _. split_and!; [done|by eapply put_old|done].
      + intros w' e Hw' He' Hne _ _. rbind. rewrite <-Hw' in Hs.
        replace (t_end (set h)) with (tpos (t_hdr (set h)) xs (length xs)) by (by apply tpos_end).
        eapply read_iter_spec; [exact Hs|]. apply runs_ret. eapply Hpost; [exact Hs| |by right].
        simpl. rewrite Hvi, Hv, He'. by apply vals_same.
    - (* insert with hint *) eapply sexec_elem; [done..| | |].
      { intros Hi. simpl. by rewrite Hi. } { intros Hx. simpl. rewrite Hx. by destruct (vals xss !! i). }
      intros h xs hr t a v Hi Hx Hs Hv Hrd Hpost. pose proof (vals_at _ _ _ Hx) as Hvi.
      rbind. eapply t_iter_at_spec; [exact Hs|].
      rbind. eapply insert_at_spec; [done|exact Hs|done|done| | |].
      + intros b pre post h' t' orc -> Hb Hs' _. rbind. eapply (read_iter_at (set h) _ _ _ (length pre)); [exact Hs'|by apply list_lookup_middle|].
        apply runs_ret. eapply Hpost; [exact Hs'| |].
        * simpl. rewrite Hvi, Hv. eexists true, v, _. split_and!; [done|by eapply put_new|done].
        * intros q Hq. right. by apply keep_ins.
      + intros k b u Hk H1 H2. rbind. eapply read_iter_at; [exact Hs|done|]. apply runs_ret. eapply Hpost; [exact Hs| |by right].
        simpl. rewrite Hvi, Hv, He. eexists false, u, _. split_and!; [done|by eapply put_old|done].
      + intros w' e Hw' He' Hne _ _. rbind. rewrite <-Hw' in Hs.
        replace (t_end (set h)) with (tpos (t_hdr (set h)) xs (length xs)) by (by apply tpos_end).
        eapply read_iter_spec; [exact Hs|]. apply runs_ret. eapply Hpost; [exact Hs| |by right].
        simpl. rewrite Hvi, Hv, He'. split; [by apply vals_same|]. by rewrite (proj2 (lookup_ge_None xs.*2 (length xs))) by (by rewrite fmap_length).
    - (* insert range *) eapply sexec_one; [done..| |]. { intros Hi. simpl. by rewrite Hi. }
      intros h xs hr t Hi Hx Hs Hpost. pose proof (vals_at _ _ _ Hx) as Hvi.
      rbind. eapply insert_range_spec; [done|exact Hs|done|]. intros ys t' w' n Hs' Hk Hp Hn. apply runs_ret.
      eapply Hpost; [exact Hs'| |by right; apply Hk]. simpl. rewrite Hvi. destruct (w_err w') as [e|].
      + destruct Hn as [Hn _]. by exists n, ys.*2.
      + exists ys.*2. by rewrite take_ge in Hp by done.
    - (* emplace *) eapply sexec_elem; [done..| | |].
      { intros Hi. simpl. by rewrite Hi. } { intros Hx. simpl. rewrite Hx. by destruct (vals xss !! i). }
      intros h xs hr t a v Hi Hx Hs Hv Hrd Hpost. pose proof (vals_at _ _ _ Hx) as Hvi.
      rbind. eapply emplace_spec; [done|exact Hs|done|done| | |].
      + intros b pre post h' t' orc -> Hb Hs'. rbind. eapply (read_iter_at (set h) _ _ _ (length pre)); [exact Hs'|by apply list_lookup_middle|].
        apply runs_ret. eapply Hpost; [exact Hs'| |].
        * simpl. rewrite Hvi, Hv. eexists true, v, _. split_and!; [done|by eapply put_new|done].
        * intros p Hp. right. by apply keep_ins.
      + intros k b u orc Hk H1 H2. rbind. eapply read_iter_at; [exact Hs|done|]. apply runs_ret. eapply Hpost; [exact Hs| |by right].
        simpl. rewrite Hvi, Hv. eexists false, u, _. split_and!; [done|by eapply put_old|done].
      + intros w' e Hw' He' Hne. rbind. rewrite <-Hw' in Hs.
        replace (t_end (set h)) with (tpos (t_hdr (set h)) xs (length xs)) by (by apply tpos_end).
        eapply read_iter_spec; [exact Hs|]. apply runs_ret. eapply Hpost; [exact Hs| |by right].
        simpl. rewrite Hvi, Hv, He'. by apply vals_same.
    - (* emplace with hint *) eapply sexec_elem; [done..| | |].
      { intros Hi. simpl. by rewrite Hi. } { intros Hx. simpl. rewrite Hx. by destruct (vals xss !! i). }
      intros h xs hr t a v Hi Hx Hs Hv Hrd Hpost. pose proof (vals_at _ _ _ Hx) as Hvi.
      rbind. eapply t_iter_at_spec; [exact Hs|].
      rbind. eapply emplace_hint_spec; [done|exact Hs|done|done| | |].
      + intros b pre post h' t' orc -> Hb Hs'. rbind. eapply (read_iter_at (set h) _ _ _ (length pre)); [exact Hs'|by apply list_lookup_middle|].
        apply runs_ret. eapply Hpost; [exact Hs'| |].
        * simpl. rewrite Hvi, Hv. eexists true, v, _. split_and!; [done|by eapply put_new|done].
        * intros q Hq. right. by apply keep_ins.
      + intros k b u orc Hk H1 H2. rbind. eapply read_iter_at; [exact Hs|done|]. apply runs_ret. eapply Hpost; [exact Hs| |by right].
        simpl. rewrite Hvi, Hv. eexists false, u, _. split_and!; [done|by eapply put_old|done].
      + intros w' e Hw' He' Hne. rbind. rewrite <-Hw' in Hs.
        replace (t_end (set h)) with (tpos (t_hdr (set h)) xs (length xs)) by (by apply tpos_end).
        eapply read_iter_spec; [exact Hs|]. apply runs_ret. eapply Hpost; [exact Hs| |by right].
        simpl. rewrite Hvi, Hv, He'. split; [by apply vals_same|]. by rewrite (proj2 (lookup_ge_None xs.*2 (length xs))) by (by rewrite fmap_length).
    - (* erase key *) eapply sexec_elem; [done..| | |].
      { intros Hi. simpl. by rewrite Hi. } { intros Hx. simpl. rewrite Hx. by destruct (vals xss !! i). }
      intros h xs hr t a v Hi Hx Hs Hv Hrd Hpost. pose proof (vals_at _ _ _ Hx) as Hvi.
      rbind. eapply erase_key_spec; [done|exact Hs|done| |].
      + intros k b u h' t' Hk H1 H2 Hs'. apply runs_ret. eapply Hpost; [exact Hs'| |].
        * simpl. rewrite He, Hvi, Hv. split; [done|]. right. eexists u, _. split_and!; [done| |done|done].
          rewrite (split_mid _ _ _ Hk) at 1. rewrite !fmap_app. csimpl. symmetry. apply Permutation_middle.
        * intros p Hp. destruct (keep_del xs k p Hp) as [Hp'|Hp']; [left|by right]. simplify_eq.
          exists xs, v. split_and!; done.
      + intros h' t' Hno Hs'. apply runs_ret. eapply Hpost; [exact Hs'| |by right].
        simpl. rewrite He, Hvi, Hv. split; [done|]. left. split_and!; [by apply far_absent|done|by apply vals_same].
    - (* erase *) eapply sexec_one; [done..| |]. { intros Hi. simpl. by rewrite Hi. }
      intros h xs hr t Hi Hx Hs Hpost. pose proof (vals_at _ _ _ Hx) as Hvi.
      rbind. eapply t_iter_at_spec; [exact Hs|]. destruct (decide (p < length xs)) as [Hp|Hp].
      + rewrite decide_False by (by eapply (tpos_ne comp)). rbind. eapply erase_spec; [exact Hs|done|].
        intros h' t' Hs'. rbind. rewrite <-(tpos_del (t_hdr (set h)) xs p p) by lia.
        eapply read_iter_spec; [exact Hs'|]. apply runs_ret. eapply Hpost; [exact Hs'| |].
        * simpl. rewrite He, Hvi. split; [done|]. rewrite <-del_pairs. replace (p + 1) with (S p) by lia. split; [done|].
          intros _. f_equal. rewrite !list_lookup_fmap. f_equal.
          rewrite lookup_app_r by (rewrite take_length; lia). rewrite take_length, lookup_drop. f_equal. lia.
        * intros q Hq. destruct (keep_del xs p q Hq) as [Hq'|Hq']; [left|by right]. simpl. by rewrite Hx.
      + rewrite tpos_end by lia. rewrite decide_True by done. apply runs_ret. eapply Hpost; [exact Hs| |by right].
        simpl. rewrite He, Hvi. split; [done|]. rewrite del_ge by (rewrite fmap_length; lia). split; [done|].
        rewrite fmap_length. lia.
    - (* erase range *) eapply sexec_one; [done..| |]. { intros Hi. simpl. by rewrite Hi. }
      intros h xs hr t Hi Hx Hs Hpost. pose proof (vals_at _ _ _ Hx) as Hvi.
      rbind. eapply t_iter_at_spec; [exact Hs|]. rbind. eapply t_iter_at_spec; [exact Hs|].
      rewrite (tpos_clip _ _ p), (tpos_clip _ _ (p + n)). set (i1 := p `min` length xs). set (i2 := (p + n) `min` length xs).
      assert (take i1 xs ++ drop i2 xs = take p xs ++ drop (p + n) xs) as Hcut.
      { unfold i1, i2. f_equal.
        - destruct (decide (p <= length xs)); [by rewrite Nat.min_l|]. rewrite Nat.min_r by lia. by rewrite !take_ge by lia.
        - destruct (decide (p + n <= length xs)); [by rewrite Nat.min_l|]. rewrite Nat.min_r by lia. by rewrite !drop_ge by lia. }
      rbind. eapply erase_range_spec; [exact Hs|lia|lia|]. intros h' t' Hs'. rbind.
      replace (tpos (t_hdr (set h)) xs i2) with (tpos (t_hdr (set h)) (take i1 xs ++ drop i2 xs) i1).
      2: { rewrite !tpos_first. f_equal. rewrite drop_app_ge by (rewrite take_length; lia).
           rewrite take_length, drop_drop. f_equal. lia. }
      eapply read_iter_spec; [exact Hs'|]. apply runs_ret. eapply Hpost; [exact Hs'| |].
      + simpl. rewrite He, Hvi, Hcut. split; [done|]. rewrite <-del_pairs. split; [done|].
        f_equal. rewrite !list_lookup_fmap. f_equal. rewrite <-Hcut.
        rewrite lookup_app_r by (rewrite take_length; lia). rewrite take_length, lookup_drop.
        replace (i2 + (i1 - i1 `min` length xs)) with i2 by lia. unfold i2.
        destruct (decide (p + n <= length xs)); [by rewrite Nat.min_l|]. rewrite Nat.min_r by lia.
        by rewrite !(proj2 (lookup_ge_None _ _)) by lia.
      + intros q Hq. rewrite Hcut. destruct (keep_del_range xs p (p + n) q) as [(k & Hk & Hq')|Hq']; [lia|done|left|by right].
        exists xs, k. done.
    - (* clear *) eapply sexec_one; [done..| |]. { intros Hi. simpl. split; [done|]. by rewrite upd_none. }
      intros h xs hr t Hi Hx Hs Hpost. rbind. eapply clear_spec; [exact Hs|]. intros h' Hs'. apply runs_ret.
      eapply Hpost; [exact Hs'| |].
      + simpl. split; [done|]. by erewrite upd_vals.
      + intros p Hp. left. by exists xs.
    - (* copy *) eapply sexec_two; [done..| | |].
      { simpl. intros [->| ->]; [done|]. by destruct (vals xss !! i). }
      + intros h xs hr t <- Hi Hx Hs Hpost. rbind. unfold t_copy. rewrite decide_True by done. apply runs_ret. apply runs_ret.
        eapply Hpost; [exact Hs| |by right]. simpl. rewrite (vals_at _ _ _ Hx), decide_True by done.
        split; [done|]. by apply vals_same.
      + intros h xs h2 xs2 hr Hne Hi Hx Hj Hx2 Hp Hpost. destruct Hp as (hv2 & t & Ho2 & Hd2 & Hs).
        rbind. eapply copy_spec; [|done|exact Hs|by apply own_there| |].
        { destruct Hs as ([_ _ _ _ Hnone] & _). simpl. intros ->. destruct Ho2 as (_ & t2 & _ & Hh2 & _).
          specialize (Hnone h2). simpl in Hnone. rewrite (lookup_union_Some_l _ _ _ _ Hh2) in Hnone.
          discriminate Hnone. by left. }
        * intros h' orc zs t' Hzs Hs'. apply runs_ret. eapply (Hpost zs xs2); [by exists hv2, t'| |].
          -- simpl. rewrite (vals_at _ _ _ Hx), (vals_at _ _ _ Hx2), decide_False by done. rewrite Hzs. f_equal. by apply vals_same.
          -- intros p [Hp|Hp]; [left|by right; right]. split; [done|]. by exists xs.
        * intros w' e Hs' He' _. apply runs_ret. eapply (Hpost [] xs2); [by exists hv2, Leaf| |].
          -- simpl. rewrite (vals_at _ _ _ Hx), (vals_at _ _ _ Hx2), decide_False by done. rewrite He'. f_equal. by apply vals_same.
          -- intros p [Hp|Hp]; [left|by right; right]. split; [done|]. by exists xs.
    - (* move *) eapply sexec_two; [done..| | |].
      { simpl. intros H0. split; [done|]. destruct H0 as [->| ->]; [done|]. by destruct (vals xss !! i). }
      + intros h xs hr t <- Hi Hx Hs Hpost. rbind. eapply move_assign_self_spec; [exact Hs|]. intros h' Hs'. apply runs_ret.
        eapply Hpost; [exact Hs'| |].
        * simpl. rewrite (vals_at _ _ _ Hx), decide_True by done. done.
        * intros p Hp. left. by exists xs.
      + intros h xs h2 xs2 hr Hne Hi Hx Hj Hx2 Hp Hpost. rbind. eapply move_assign_spec; [|exact Hp|]; [done|].
        intros h' Hp'. apply runs_ret. eapply Hpost; [exact Hp'| |].
        * simpl. rewrite (vals_at _ _ _ Hx), (vals_at _ _ _ Hx2), decide_False by done. done.
        * intros p [Hq|Hq]; [left; by exists xs|by right; left].
    - (* swap *) eapply sexec_two; [done..| | |].
      { simpl. intros H0. split; [done|]. destruct H0 as [->| ->]; [done|]. by destruct (vals xss !! i). }
      + intros h xs hr t <- Hi Hx Hs Hpost. rbind. eapply swap_self_spec; [exact Hs|]. apply runs_ret.
        eapply Hpost; [exact Hs| |by right].
        simpl. rewrite (vals_at _ _ _ Hx). by rewrite list_insert_insert.
      + intros h xs h2 xs2 hr Hne Hi Hx Hj Hx2 Hp Hpost. rbind. eapply swap_spec; [|exact Hp|]; [done|].
        intros h' Hp'. apply runs_ret. eapply Hpost; [exact Hp'| |].
        * simpl. rewrite (vals_at _ _ _ Hx), (vals_at _ _ _ Hx2). done.
        * intros p [Hq|Hq]; right; [by right|by left].
    - (* find *) eapply sexec_elem; [done..| | |].
      { intros Hi. simpl. by rewrite Hi. } { intros Hx. simpl. rewrite Hx. by destruct (vals xss !! i). }
      intros h xs hr t a v Hi Hx Hs Hv Hrd Hpost. pose proof (vals_at _ _ _ Hx) as Hvi.
      rbind. eapply find_spec; [done|exact Hs|done| |].
      + intros k b u Hk H1 H2. rbind. eapply read_iter_at; [exact Hs|done|]. apply runs_ret. eapply Hpost; [exact Hs| |by right].
        simpl. rewrite Hvi, Hv, vals_same by done. split_and!; [done|done|]. exists (Some u). split; [done|].
        destruct (put_old v xs k b u Hk H1 H2) as (? & ? & _). done.
      + intros Hno. replace (t_hdr (set h)) with (tpos (t_hdr (set h)) xs (length xs)) by (by apply tpos_end).
        rbind. eapply read_iter_spec; [exact Hs|]. apply runs_ret. eapply Hpost; [exact Hs| |by right].
        simpl. rewrite Hvi, Hv, vals_same by done. split_and!; [done|done|]. eexists. split; [done|].
        rewrite (proj2 (lookup_ge_None xs.*2 (length xs))) by (by rewrite fmap_length). by apply far_absent.
    - (* lower_bound *) eapply sexec_elem; [done..| | |].
      { intros Hi. simpl. by rewrite Hi. } { intros Hx. simpl. rewrite Hx. by destruct (vals xss !! i). }
      intros h xs hr t a v Hi Hx Hs Hv Hrd Hpost. pose proof (vals_at _ _ _ Hx) as Hvi.
      rbind. eapply lower_bound_spec; [done|exact Hs|done|]. intros k Hk. rbind. eapply read_iter_spec; [exact Hs|].
      apply runs_ret. eapply Hpost; [exact Hs| |by right]. simpl. rewrite Hvi, Hv, vals_same by done. split_and!; [done|done|].
      f_equal. by rewrite (splits_head _ _ _ Hk).
    - (* upper_bound *) eapply sexec_elem; [done..| | |].
      { intros Hi. simpl. by rewrite Hi. } { intros Hx. simpl. rewrite Hx. by destruct (vals xss !! i). }
      intros h xs hr t a v Hi Hx Hs Hv Hrd Hpost. pose proof (vals_at _ _ _ Hx) as Hvi.
      rbind. eapply upper_bound_spec; [done|exact Hs|done|]. intros k Hk. rbind. eapply read_iter_spec; [exact Hs|].
      apply runs_ret. eapply Hpost; [exact Hs| |by right]. simpl. rewrite Hvi, Hv, vals_same by done. split_and!; [done|done|].
      f_equal. rewrite (splits_head _ _ _ Hk). f_equal. apply list_filter_iff. intros u. apply negb_false_iff.
    - (* count *) eapply sexec_elem; [done..| | |].
      { intros Hi. simpl. by rewrite Hi. } { intros Hx. simpl. rewrite Hx. by destruct (vals xss !! i). }
      intros h xs hr t a v Hi Hx Hs Hv Hrd Hpost. pose proof (vals_at _ _ _ Hx) as Hvi.
      rbind. eapply count_spec; [done|exact Hs|done| |].
      + intros (p & Hp & H1 & H2). apply runs_ret. eapply Hpost; [exact Hs| |by right].
        simpl. rewrite Hvi, Hv, vals_same by done. split_and!; [done|done|]. left. split; [done|]. exists p.2.
        split; [|done]. by apply elem_of_list_fmap_1.
      + intros Hno. apply runs_ret. eapply Hpost; [exact Hs| |by right].
        simpl. rewrite Hvi, Hv, vals_same by done. split_and!; [done|done|]. right. split; [done|]. by apply far_absent.
  Qed.

  (** ** Histories *)

  Lemma runs_exec_sops ops hds xss hv hf w (Q : _ -> W -> Prop) :
    swo comp -> srow hds xss hv -> heap_is w hv hf ->
    (forall rs xss' hv' w', srow hds xss' hv' -> heap_is w' hv' hf -> sops_spec comp ops (vals xss) rs (vals xss') -> Q rs w') ->
    runs (exec_sops cf comp ops (objs hds)) w Q.
  Proof.
    intros Hswo. revert xss hv w Q. induction ops as [|op ops IH]; intros xss hv w Q Hr Hh HQ; simpl.
    - apply runs_ret. by eapply HQ.
    - rbind. apply runs_put_err. rbind. eapply runs_mono; [eapply runs_exec_sop; [done|exact Hr| |]; [exact Hh|done]|].
      intros a w1 (xss1 & hv1 & Hr1 & Hh1 & Hs & _). rbind. apply runs_get_err. rbind.
      eapply IH; [exact Hr1|exact Hh1|]. intros rs xss' hv' w' Hr' Hh' Hs'. apply runs_ret. eapply HQ; [done..|]. simpl. by exists (vals xss1).
  Qed.

  Lemma t_walk_loop_spec o xs hf t fuel i w (Q : list V -> W -> Prop) :
    sin o xs (w_heap w) hf t -> i <= length xs -> length xs - i < fuel ->
    Q (drop i xs.*2) w -> runs (t_walk_loop fuel (t_end o) (tpos (t_hdr o) xs i)) w Q.
  Proof.
    intros Hs. revert i Q. induction fuel as [|fuel IH]; intros i Q Hi Hf HQ; [lia|]. simpl.
    destruct (xs !! i) as [[a v]|] eqn:Ei.
    - pose proof (lookup_lt_Some _ _ _ Ei) as Hlt. rewrite decide_False by (by eapply (tpos_ne comp)).
      rbind. erewrite tpos_some at 1 by done. eapply tread_spec; [done..|]. rbind. eapply (RbSet.runs_inc comp); [exact Hs|done|].
      rbind. apply IH; [lia|lia|]. apply runs_ret. erewrite drop_at in HQ; [done|]. by rewrite list_lookup_fmap, Ei.
    - apply lookup_ge_None in Ei. rewrite tpos_end by done. rewrite decide_True by done. apply runs_ret.
      by rewrite drop_ge in HQ by (by rewrite fmap_length).
  Qed.
  Lemma t_rwalk_loop_spec o xs hf t fuel i w (Q : list V -> W -> Prop) :
    sin o xs (w_heap w) hf t -> i <= length xs -> i < fuel ->
    Q (reverse (take i xs.*2)) w -> runs (t_rwalk_loop fuel (tpos (t_hdr o) xs 0) (tpos (t_hdr o) xs i)) w Q.
  Proof.
    intros Hs. revert i Q. induction fuel as [|fuel IH]; intros i Q Hi Hf HQ; [lia|]. simpl.
    pose proof (sin_nodup _ _ _ _ _ _ Hs) as Hn. destruct i as [|i].
    - rewrite decide_True by done. by apply runs_ret.
    - rewrite decide_False by (intros Heq; apply (tpos_inj o) in Heq; [lia|done|lia|lia]).
      rbind. eapply (RbSet.runs_dec comp); [exact Hs|lia|]. destruct (lookup_lt_is_Some_2 xs i) as [[a v] Ei]; [lia|].
      rbind. erewrite tpos_some at 1 by done. eapply tread_spec; [done..|]. rbind. apply IH; [lia|lia|]. apply runs_ret.
      erewrite take_S_r in HQ; [|by rewrite list_lookup_fmap, Ei]. by rewrite reverse_app in HQ.
  Qed.

  Lemma sin_fuel o xs h hf t : sin o xs h hf t -> length xs < S (S (size h)).
  Proof.
    intros Hs. pose proof (sin_nodup _ _ _ _ _ _ Hs) as Hn. destruct Hs as ([Hh Ht _ _ _] & <- & _ & _).
    assert (list_to_set (elems t).*1 ⊆ dom h) as Hsub.
    { intros a Ha. apply elem_of_list_to_set in Ha. apply elem_of_dom.
      apply elem_of_list_fmap in Ha as ([b v] & -> & [j Hj]%elem_of_list_lookup).
      destruct (find_ctx _ _ _ _ Hj) as (k & c & l & r & -> & _). apply tat_plug in Ht as (_ & Ht & _). eexists. apply Ht. }
    apply subseteq_size in Hsub. rewrite size_dom in Hsub. rewrite size_list_to_set, fmap_length in Hsub by (by apply NoDup_cons in Hn as [_ ?]).
    lia.
  Qed.

  Lemma t_runs_state {A} (m : M (tcell V) A) w a :
    (forall Q : A -> W -> Prop, Q a w -> runs m w Q) -> m w = Done a w.
  Proof.
    intros Hm. destruct (Hm (fun b w' => b = a /\ w' = w)) as (b & w' & Hr & -> & ->); [done|]. exact Hr.
  Qed.
  Lemma sin_shows o xs hf t w : swo comp -> sin o xs (w_heap w) hf t -> set_shows comp w o xs.*2.
  Proof.
    intros Hswo Hs. split_and!.
    - apply asc_ascending. apply Hs.
    - apply t_runs_state. intros Q HQ. eapply size_spec; [exact Hs|]. by rewrite fmap_length in HQ.
    - apply t_runs_state. intros Q HQ. eapply empty_spec; [exact Hs|]. by destruct xs.
    - apply t_runs_state. intros Q HQ. unfold t_walk. rbind. eapply begin_spec; [exact Hs|]. rbind. apply runs_cell_fuel.
      eapply t_walk_loop_spec; [exact Hs|lia| |done]. pose proof (sin_fuel _ _ _ _ _ Hs). lia.
    - apply t_runs_state. intros Q HQ. unfold t_rwalk. rbind. eapply begin_spec; [exact Hs|]. rbind. apply runs_cell_fuel.
      replace (t_end o) with (tpos (t_hdr o) xs (length xs)) by (by apply tpos_end).
      eapply t_rwalk_loop_spec; [exact Hs|lia| |]. { by eapply sin_fuel. }
      by rewrite take_ge by (by rewrite fmap_length).
    - intros v.
      assert (runs (let! it := t_find comp o (TAVal v) in read_iter o it) w (fun r w' => w' = w /\ found comp v xs.*2 r)) as (r & w' & Hrun & -> & Hf).
      { rbind. eapply find_spec; [done|exact Hs|done| |].
        - intros k b u Hk H1 H2. eapply read_iter_at; [exact Hs|done|]. split; [done|].
          destruct (put_old v xs k b u Hk H1 H2) as (? & ? & _). done.
        - intros Hno. replace (t_hdr o) with (tpos (t_hdr o) xs (length xs)) by (by apply tpos_end).
          eapply read_iter_spec; [exact Hs|]. split; [done|].
          rewrite (proj2 (lookup_ge_None xs.*2 (length xs))) by (by rewrite fmap_length). by apply far_absent. }
      by exists r.
  Qed.
  Lemma srow_shows hds xss hv hf w i h xs : swo comp -> srow hds xss hv -> heap_is w hv hf ->
    hds !! i = Some h -> xss !! i = Some xs -> set_shows comp w (set h) xs.*2.
  Proof.
    intros Hswo Hr Hh Hi Hx. destruct (srow_at _ _ _ _ _ _ Hr Hi Hx) as (R & _ & Ho & _).
    destruct (own_get _ _ _ _ _ _ Ho Hh) as (hr & t & _ & _ & Hs). by eapply sin_shows.
  Qed.

  Lemma new_sets_spec k w hf hv R (Q : list tset -> W -> Prop) :
    own R hv -> heap_is w hv hf ->
    (forall hds hv' w', length hds = k -> own (zip hds (replicate k []) ++ R) hv' -> heap_is w' hv' hf ->
       w_orc w' = w_orc w -> Q (objs hds) w') ->
    runs (new_sets cf k) w Q.
  Proof.
    revert w hv R Q. induction k as [|k IH]; intros w hv R Q Ho Hh HQ; simpl.
    - apply runs_ret. by apply (HQ [] hv).
    - rbind. apply (new_spec comp). intros a h' Ha Hs. rbind.
      destruct (own_put a [] R hv hf (set_heap h' w) Leaf) as (hv1 & Ho1 & Hh1); [done|apply Hh| |].
      { destruct Hh as [Hw _]. simpl. by rewrite <-Hw. }
      eapply IH; [exact Ho1|exact Hh1|]. intros hds hv' w' Hl Ho' Hh' Horc. apply runs_ret.
      apply (HQ (a :: hds) hv' w'); [simpl; lia| |done|done]. eapply sown_perm; [|exact Ho']. simpl.
      by rewrite Permutation_middle.
  Qed.
  Lemma destroy_sets_spec hds xss w hv hf (Q : unit -> W -> Prop) :
    srow hds xss hv -> heap_is w hv hf -> (forall w', w_heap w' = hf -> Q tt w') ->
    runs (destroy_sets (objs hds)) w Q.
  Proof.
    intros [Hl Ho] Hh HQ. revert xss w hv Hl Ho Hh. induction hds as [|h hds IH]; intros [|xs xss] w hv Hl Ho Hh; try done.
    - simpl. apply runs_ret. apply HQ. destruct Hh as [Hw _]. simpl in Ho. subst hv. by rewrite (left_id_L ∅ (∪)) in Hw.
    - simpl. destruct (own_get _ _ _ _ _ _ Ho Hh) as (hr & t & HoR & Hd & Hs).
      rbind. eapply destroy_spec; [exact Hs|]. simpl in Hl. eapply (IH xss _ hr); [lia|exact HoR|]. split; [done|done].
  Qed.
End hist.
