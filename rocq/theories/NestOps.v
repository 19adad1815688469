(** * Operations on vectors of vectors, and any depth *)
From Verif Require Export NestProofs.

#[global] Arguments g_assign_ptrs : simpl never.

Section generic.
  Context {V X : Type} (cf : cfg V) (Own : V -> X -> gmap addr (vblock V) -> Prop).
  Context (cons : ptr -> arg V -> M (vblock V) unit) (des : ptr -> M (vblock V) unit).
  Notation W := (world (vblock V)).
  Implicit Types w : W.
  Implicit Types h hn hr hx hs hf : gmap addr (vblock V).
  Hypothesis (Hcons : cons_ok Own cons) (Hdes : des_ok Own des).
  Notation nowns := (nvec_owns cf Own).
  Notation narg := (narg Own).

  Lemma runs_g_resize_loop fuel v xs cap h hf count a x w (Q : _ -> W -> Prop) :
    nowns v xs cap h -> m_start v <> Null -> length xs <= count -> count <= cap ->
    heap_is w h hf -> w_err w = None -> narg hf a x -> count - length xs < fuel ->
    (forall v' h' w' k, m_allocator v' = m_allocator v ->
       k <= count - length xs -> nowns v' (xs ++ replicate k x) cap h' -> heap_is w' h' hf ->
       ((w_err w' = None /\ k = count - length xs) \/ (exists e, w_err w' = Some e /\ k < count - length xs)) ->
       Q v' w') ->
    runs (g_resize_loop cons fuel v count a) w Q.
  Proof.
    revert v xs h w Q. induction fuel as [|fuel IH];
      intros v xs h w Q Ho Hnn Hlc Hcc Hh He Ha Hfuel HQ; [lia|]. simpl.
    pose proof Ho as Ho0.
    apply nowns_inv in Ho as [(Hs & _)|(b & vs & hs & Hs & Hf & Hen & Hle & Hc & Hown & Hb & ->)]; [congruence|].
    destruct Hh as [Hw Hd]. pose proof (all_own_length _ _ _ _ Hown) as Hlen.
    assert (Hwb : w_heap w !! b = Some (Block (m_allocator v) cap cap (map_seq 0 vs))).
    { rewrite Hw. apply lookup_union_Some_l. apply lookup_insert. }
    rewrite Hs. rbind. eapply runs_padd; [exact Hwb|simpl; lia|].
    rewrite Nat.add_0_l, Hf. simpl. case_bool_decide as Hlt.
    - destruct Hlt as [_ Hlt]. destruct Ha as (va & hx & Hav & Hox & Hxs).
      destruct (h_block_frame ∅ _ _ _ _ Hb Hd) as (E1 & Hd1 & Hbf & Hd2).
      rbind. eapply (Hcons w b (length vs) _ a va x hx).
      + done.
      + eapply arg_outside_val; try done.
      + done.
      + rewrite Hw. etrans; [exact Hxs|]. by apply map_union_subseteq_r.
      + exact (lookup_weaken_None _ _ _ Hbf Hxs).
      + done.
      + simpl. lia.
      + simpl. rewrite lookup_map_seq_0. apply lookup_ge_None. lia.
      + intros w1 v' hn Hov Hdn Hw1 He1. rewrite Hw, E1 in Hw1, Hdn.
        destruct (h_insert hs hf hn b _ (bput (Block (m_allocator v) cap cap (map_seq 0 vs)) (length vs) v') Hbf Hb Hd2 Hdn) as (G1 & G2 & G3 & G4).
        rewrite G1 in Hw1. unfold bput in Hw1, G2. simpl in Hw1, G2. rewrite map_seq_snoc_0 in Hw1, G2.
        rbind. apply runs_has_err. rewrite He1.
        rbind. eapply runs_padd.
        { rewrite Hw1. apply lookup_union_Some_l. apply lookup_insert. }
        { simpl. lia. }
        assert (Hlen2 : length (xs ++ [x]) = length xs + 1) by (by rewrite app_length).
        eapply (IH _ (xs ++ [x]) (<[b:=Block (m_allocator v) cap cap (map_seq 0 (vs ++ [v']))]> (hn ∪ hs)) w1).
        * apply (nowns_block cf Own (Vec (m_allocator v) (Ptr b 0) (Ptr b (length vs + 1)) (m_end_of_storage v))); simpl; try done.
          -- by rewrite app_length.
          -- rewrite app_length. simpl. lia.
          -- by apply all_own_snoc.
        * simpl. done.
        * lia.
        * done.
        * done.
        * done.
        * exists va, hx. done.
        * lia.
        * intros v2 h2 w2 k Hal Hk Ho2 Hh2 Hcase. simpl in Hal. rewrite <-(assoc_L (++)) in Ho2.
          eapply (HQ v2 h2 w2 (S k)); try done; [lia|].
          rewrite Hlen2 in Hcase. destruct Hcase as [[? ?]|(e & ? & ?)]; [left|right; exists e]; split; try done; lia.
      + intros w1 e Hw1 He1. rbind. apply runs_has_err. rewrite He1. apply runs_ret.
        eapply (HQ v _ w1 0); simpl; try done.
        * lia.
        * by rewrite app_nil_r.
        * split; [by rewrite Hw1|done].
        * right. exists e. split; [done|lia].
    - assert (length vs = count) as Heq by (destruct (decide (length vs < count)); [tauto|lia]).
      apply runs_ret. eapply (HQ v _ w 0); try done.
      + lia.
      + simpl. by rewrite app_nil_r.
      + left. split; [done|lia].
  Qed.

  Lemma runs_g_resize v xs cap h hf count a x w (Q : _ -> W -> Prop) :
    cfg_ok cf -> nowns v xs cap h -> heap_is w h hf -> w_err w = None ->
    (N.of_nat count * c_sizeof cf < 2^64)%N ->
    cap < count \/ fits (3 * (cap + 1)) -> narg hf a x ->
    (forall v' h' w', count <= length xs -> m_allocator v' = m_allocator v ->
       nowns v' (take count xs) cap h' -> heap_is w' h' hf -> w_err w' = None -> Q v' w') ->
    (forall v' cap' h' w' k, length xs < count -> m_allocator v' = m_allocator v ->
       k <= count - length xs -> nowns v' (xs ++ replicate k x) cap' h' -> heap_is w' h' hf ->
       ((w_err w' = None /\ k = count - length xs) \/
        (exists e, w_err w' = Some e /\ k < count - length xs)) -> Q v' w') ->
    runs (g_resize cf cons des v count a) w Q.
  Proof.
    intros Hcf Ho Hh He Hb Hgt Ha Hshrink Hgrow. unfold g_resize.
    rbind. eapply nowns_size; [done|]. case_decide as Hle.
    - destruct Hh as [Hw Hd].
      apply nowns_inv in Ho as [(Hs & Hf & Hen & -> & -> & ->)|(b & vs & hs & Hs & Hf & Hen & Hlec & Hc & Hown & Hbs & ->)]; rewrite Hs, Hf.
      + simpl in Hle. replace count with 0 in * by lia. rbind. apply runs_ret. rbind. apply runs_g_destroy_null.
        apply runs_ret. rewrite Hen. eapply (Hshrink _ ∅); simpl; try done. apply nowns_nulls.
      + pose proof (all_own_length _ _ _ _ Hown) as Hlen.
        destruct (h_block_frame ∅ _ _ _ _ Hbs Hd) as (E1 & Hd1 & Hbf & Hd2). rewrite E1 in Hw.
        apply (all_own_split _ _ _ _ count) in Hown as (h1 & h2 & Ho1 & Ho2 & Hd12 & ->).
        apply map_disjoint_union_l in Hd2 as [Hd2 Hd3]. apply lookup_union_None in Hbs as [Hb1 Hb2].
        assert (Hb0 : (h1 ∪ <[b:=Block (m_allocator v) cap cap (map_seq 0 vs)]> hf) !! b = Some (Block (m_allocator v) cap cap (map_seq 0 vs))).
        { apply lookup_union_Some_r; [|by rewrite lookup_insert]. by apply map_disjoint_insert_r. }
        assert (Hw' : w_heap w = h2 ∪ (h1 ∪ <[b:=Block (m_allocator v) cap cap (map_seq 0 vs)]> hf)).
        { rewrite Hw, (assoc_L (∪)). f_equal. by apply map_union_comm. }
        assert (Hd2' : h2 ##ₘ h1 ∪ <[b:=Block (m_allocator v) cap cap (map_seq 0 vs)]> hf).
        { apply map_disjoint_union_r. split; [by symmetry|by apply map_disjoint_insert_r]. }
        rbind. eapply runs_padd.
        { rewrite Hw'. by apply lookup_union_Some_r. }
        { simpl; lia. }
        rewrite Nat.add_0_l.
        rbind. eapply (runs_g_destroy Own des Hdes w b count (length vs) _ _ _ _ (drop count vs)); [|exact Hw'|exact Hd2'|exact Hb0|lia| |done|].
        * rewrite drop_length. lia.
        * intros k v0 Hk. rewrite lookup_map_seq_0. by rewrite <-lookup_drop.
        * intros w1 live' Hl' Hw1 He1. apply runs_ret.
          assert (live' = map_seq 0 (take count vs)) as ->.
          { apply map_seq_live. intros k. rewrite Hl', lookup_map_seq_0, drop_length. case_decide as Hk.
            - symmetry. apply lookup_ge_None. rewrite take_length. lia.
            - destruct (decide (k < count)).
              + by rewrite lookup_take.
              + rewrite lookup_take_ge by lia. apply lookup_ge_None. lia. }
          eapply (Hshrink _ (<[b:=Block (m_allocator v) cap cap (map_seq 0 (take count vs))]> h1)); simpl; try done.
          -- apply (nowns_block cf Own (Vec (m_allocator v) (Ptr b 0) (Ptr b count) (m_end_of_storage v))); simpl; try done.
             ++ rewrite take_length. f_equal. lia.
             ++ rewrite take_length. lia.
          -- split.
             ++ by rewrite Hw1, <-insert_union_r, insert_insert, insert_union_l by done.
             ++ by apply map_disjoint_insert_l.
          -- by rewrite He1.
    - rbind. eapply runs_g_grow; try done.
      + intros v' b h' w' Hs' Hal' Hfresh Ho' Hh' He'.
        rbind. apply runs_has_err. rewrite He'.
        eapply (runs_g_resize_loop _ v' xs); try done; [by rewrite Hs'|lia|apply grow_cap_ge|lia|].
        intros v'' h'' w'' k Hal'' Hk Ho'' Hh'' Hcase.
        eapply Hgrow; try done; [lia|congruence].
      + intros w' e Hhe He'. rbind. apply runs_has_err. rewrite He'. apply runs_ret.
        eapply (Hgrow _ cap h _ 0); try done; [lia|lia| | |].
        * by rewrite app_nil_r.
        * destruct Hh. split; [congruence|done].
        * right. exists e. split; [done|lia].
  Qed.

  Lemma runs_g_destroy_tmp tmp xs cap h1 h2 hf w (Q : _ -> W -> Prop) :
    nowns tmp xs cap h2 -> h2 ##ₘ hf -> heap_is w h1 (h2 ∪ hf) ->
    (forall w', heap_is w' h1 hf -> w_err w' = w_err w -> Q tt w') ->
    runs (g_vec_destroy des tmp) w Q.
  Proof.
    intros Ho Hd Hh HQ. apply heap_is_swap in Hh as (Hh & Hd1 & _); [|done].
    eapply runs_g_vec_destroy; [done..|]. intros w' Hw' He'. by apply HQ.
  Qed.

  Lemma runs_g_assign_ptr_loop fuel bs src vs xs hs i v l cap h hf w (Q : _ -> W -> Prop) :
    cfg_ok cf -> nowns v l cap h -> heap_is w h hf -> w_err w = None ->
    hf !! bs = Some src -> length vs <= b_room src ->
    (forall k x, vs !! k = Some x -> b_live src !! k = Some x) ->
    all_own Own vs xs hs -> hs ⊆ hf ->
    i <= length vs -> length vs - i < fuel ->
    (forall v' cap' h' w' k, m_allocator v' = m_allocator v -> k <= length xs - i ->
       nowns v' (l ++ take k (drop i xs)) cap' h' -> heap_is w' h' hf ->
       ((w_err w' = None /\ k = length xs - i) \/ (exists e, w_err w' = Some e /\ k < length xs - i)) -> Q v' w') ->
    runs (g_assign_ptr_loop cf cons des fuel v (Ptr bs i) (Ptr bs (length vs))) w Q.
  Proof.
    intros Hcf. revert i v l cap h w Q. induction fuel as [|fuel IH];
      intros i v l cap h w Q Ho Hh He Hbs Hroom Hsrc Hown Hsub Hi Hfuel HQ; [lia|]; simpl.
    pose proof (all_own_length _ _ _ _ Hown) as Hlen.
    case_decide as Heq.
    - simplify_eq. apply runs_ret. eapply (HQ _ _ _ _ 0); try done; [lia|by rewrite app_nil_r|].
      left. split; [done|lia].
    - assert (i < length vs) by (assert (i <> length vs) by congruence; lia).
      destruct (lookup_lt_is_Some_2 vs i) as [u Hu]; [done|].
      destruct (all_own_focus _ _ _ _ _ _ Hown Hu) as (x & h1 & h2 & Hx & Hox & Hd12 & Hhs & _).
      rbind. eapply (runs_g_push_back cf Own cons des Hcons Hdes) with (x := x); try done.
      { exists u, h1. split; [|split; [done|]].
        - simpl. exists src. repeat split; [done|lia|by apply Hsrc].
        - etrans; [|exact Hsub]. rewrite Hhs. apply map_union_subseteq_l. }
      + intros v' h' w' Hal Ho' Hh' He'. rbind. apply runs_has_err. rewrite He'.
        rbind. eapply runs_padd.
        { destruct Hh' as [-> Hd']. by apply lookup_union_Some_r. }
        { lia. }
        replace (i + 1) with (S i) by lia.
        eapply IH; try done; [lia|]. intros v'' cap'' h'' w'' k Hal'' Hk Ho'' Hh'' Hcase.
        eapply (HQ _ _ _ _ (S k)); try done; simpl; [congruence|lia| |].
        * rewrite <-(assoc_L (++)) in Ho''. erewrite (drop_S xs) by done. done.
        * destruct Hcase as [[? ?]|(e & ? & ?)]; [left|right; exists e]; split; try done; lia.
      + intros v' cap' h' w' e Hal Ho' Hh' He'. rbind. apply runs_has_err. rewrite He'.
        apply runs_ret. eapply (HQ _ _ _ _ 0); try done; simpl; [lia|by rewrite app_nil_r|].
        right. exists e. split; [done|lia].
  Qed.

  (** assign(first, last) from a range of elements of [o], which may be the
      destination itself *)
  Lemma runs_g_assign_ptrs v l cap h o lo capo ho hf i j w (Q : _ -> W -> Prop) :
    cfg_ok cf -> nowns v l cap h -> heap_is w h hf -> w_err w = None ->
    nowns o lo capo ho -> ho ⊆ h ∪ hf -> i <= j -> j <= length lo ->
    (forall v' cap' h' w' k, m_allocator v' = c_dflt cf -> k <= j - i ->
       nowns v' (take k (drop i lo)) cap' h' -> heap_is w' h' hf ->
       ((w_err w' = None /\ k = j - i) \/ (exists e, w_err w' = Some e /\ (k < j - i \/ i = j))) -> Q v' w') ->
    runs (g_assign_ptrs cf cons des v (vec_pos o i) (vec_pos o j)) w Q.
  Proof.
    intros Hcf Ho [Hw Hd] He Hoo Hsub Hij Hj HQ. unfold g_assign_ptrs. rewrite vec_swap_new.
    rbind. apply runs_assert; [done|].
    assert (Hfail : forall w' e, w_heap w' = w_heap w -> w_err w' = Some e ->
              runs (do! g_vec_destroy des v in ret (vec_new (c_dflt cf))) w' Q).
    { intros w' e Hhe He'. rbind. eapply runs_g_destroy_tmp; try done.
      { apply heap_is_empty. by rewrite Hhe. }
      intros w3 Hh3 He3. apply runs_ret. eapply (HQ _ _ _ _ 0); try done.
      + lia.
      + apply nowns_new.
      + rewrite He3. right. exists e. split; [done|]. lia. }
    rbind.
    assert (Hdiff : runs (pdiff (vec_pos o j) (vec_pos o i)) w (fun n w' => n = j - i /\ w' = w)).
    { unfold vec_pos. apply nowns_inv in Hoo as [(Hs & _ & _ & -> & _)|(bs & vs & hs & Hs & _)]; rewrite Hs.
      - simpl in Hj. apply runs_pdiff_null. split; [lia|done].
      - by apply runs_pdiff. }
    eapply runs_mono; [apply Hdiff|]. intros n w0 [-> ->].
    pose proof (nowns_le _ _ _ _ _ _ Hoo) as Hle. pose proof (nowns_cap_ok _ _ _ _ _ _ Hcf Hoo) as Hco.
    rbind. eapply (runs_g_grow cf Own cons des Hcons Hdes) with (hf := h ∪ hf); try done.
    - apply nowns_new.
    - by apply heap_is_empty.
    - unfold cap_ok in Hco. destruct Hcf as [[??]?]. nia.
    - right. unfold fits. lia.
    - intros v' b h' w' Hs' Hal' Hfresh Ho' Hh' He'.
      rbind. apply runs_has_err. rewrite He'.
      unfold vec_pos.
      assert (Hemp : vec_empty v' = true).
      { destruct Ho' as (vs' & hb' & hs' & Ho' & Ha' & _). apply all_own_length in Ha'.
        rewrite (owns_empty _ _ _ _ _ Ho'). by destruct vs'. }
      apply nowns_inv in Hoo as [(Hs & Hf & Hen & -> & -> & ->)|(bs & vs & hs & Hs & Hf & Hen & Hlev & Hc & Hown & Hb & ->)]; rewrite Hs.
      + simpl. rbind. rbind. apply runs_assert; [done|].
        apply runs_ret. rbind. eapply runs_g_destroy_tmp; try done. intros w3 Hh3 He3. apply runs_ret.
        simpl in Hj.
        eapply (HQ _ _ _ _ 0); try done; [lia|]. rewrite He3. left. split; [done|lia].
      + rbind. rbind. apply runs_assert; [done|].
        pose proof (all_own_length _ _ _ _ Hown) as Hlen.
        apply (all_own_split _ _ _ _ j) in Hown as (h1 & h2 & Ho1 & Ho2 & Hd12 & ->).
        assert (Hlt : length (take j vs) = j) by (rewrite take_length; lia).
        assert (Hltx : length (take j lo) = j) by (rewrite take_length; lia).
        rewrite <-Hlt at 2. rewrite <-Hlt at 1.
        eapply (runs_g_assign_ptr_loop _ _ _ (take j vs) (take j lo) h1); try done.
        { eapply lookup_weaken; [|exact Hsub]. apply lookup_insert. }
        { simpl. lia. }
        { intros k x Hk. simpl. rewrite lookup_map_seq_0. apply lookup_take_Some in Hk as [? _]. done. }
        { etrans; [|exact Hsub]. etrans; [apply map_union_subseteq_l|by apply insert_subseteq]. }
        { lia. } { simpl. lia. }
        intros v'' cap'' h'' w'' k Hal'' Hk Ho'' Hh'' Hcase. rewrite Hltx in *. simpl in Ho''.
        rewrite skipn_firstn_comm, take_take, Nat.min_l in Ho'' by lia.
        rbind. eapply runs_g_destroy_tmp; try done. intros w3 Hh3 He3. apply runs_ret.
        eapply (HQ _ _ _ _ k); try done; [by rewrite Hal'', Hal'|].
        rewrite He3. destruct Hcase as [[? ?]|(e & ? & ?)]; [left; split; [done|lia]|right; eauto].
    - intros w' e Hhe He'. rbind. apply runs_has_err. rewrite He'. rbind. apply runs_ret. by eapply Hfail.
  Qed.

  Lemma nowns_begin v xs cap h : nowns v xs cap h -> m_start v = vec_pos v 0.
  Proof. intros (vs & hb & hs & Ho & _). by eapply owns_begin. Qed.

  Lemma runs_g_copy v l cap h o lo capo ho hf w (Q : _ -> W -> Prop) :
    cfg_ok cf -> nowns v l cap h -> heap_is w h hf -> w_err w = None ->
    nowns o lo capo ho -> ho ⊆ h ∪ hf ->
    (forall v' cap' h' w' k, m_allocator v' = c_dflt cf -> k <= length lo ->
       nowns v' (take k lo) cap' h' -> heap_is w' h' hf ->
       ((w_err w' = None /\ k = length lo) \/ (exists e, w_err w' = Some e /\ (k < length lo \/ lo = []))) -> Q v' w') ->
    runs (g_copy cf cons des v o) w Q.
  Proof.
    intros Hcf Ho Hh He Hoo Hsub HQ. unfold g_copy.
    rewrite (nowns_begin _ _ _ _ Hoo), (nowns_pos_end _ _ _ _ _ _ Hoo).
    eapply runs_g_assign_ptrs; try done; [lia|].
    intros v' cap' h' w' k Hal Hk Ho' Hh' Hr. rewrite Nat.sub_0_r in *. rewrite drop_0 in Ho'.
    eapply HQ; try done. destruct Hr as [?|(e & ? & Hk')]; [by left|]. right. exists e. split; [done|].
    destruct Hk' as [|H0]; [by left|right]. by destruct lo.
  Qed.

  Lemma runs_g_copy_ctor o lo capo ho w (Q : _ -> W -> Prop) :
    cfg_ok cf -> nowns o lo capo ho -> ho ⊆ w_heap w ->
    (forall v' cap' hn w', nowns v' lo cap' hn -> heap_is w' hn (w_heap w) -> w_err w' = w_err w ->
       m_allocator v' = c_dflt cf -> Q (inl v') w') ->
    (forall e w', w_heap w' = w_heap w -> w_err w' = w_err w -> Q (inr e) w') ->
    runs (g_copy_ctor cf cons des o) w Q.
  Proof.
    intros Hcf Hoo Hsub Hok Hfail. unfold g_copy_ctor. rbind. apply runs_with_local_err.
    eapply (runs_g_copy (vec_new (m_allocator o)) [] 0 ∅ o lo capo ho (w_heap w)); try done.
    - apply nowns_new.
    - by apply heap_is_empty.
    - by rewrite (left_id_L ∅ (∪)).
    - intros v' cap' hv' w' k Hal Hk Ho' Hh' [[He ->]|(e & He & _)]; rewrite He.
      + apply runs_ret. rewrite take_ge in Ho' by done. eapply Hok; try done.
      + rbind. eapply runs_g_vec_destroy; [done..|]. intros w2 Hw2 He2. apply runs_ret. by apply Hfail.
  Qed.

  Lemma runs_g_copy_assign v l cap h o lo capo ho hf w (Q : _ -> W -> Prop) :
    cfg_ok cf -> nowns v l cap h -> heap_is w h hf ->
    nowns o lo capo ho -> ho ⊆ h ∪ hf ->
    (forall v' cap' h' w', nowns v' lo cap' h' -> heap_is w' h' hf -> w_err w' = w_err w ->
       m_allocator v' = c_dflt cf -> Q (v', None) w') ->
    (forall e w', w_heap w' = w_heap w -> w_err w' = w_err w -> Q (v, Some e) w') ->
    runs (g_copy_assign cf cons des v o) w Q.
  Proof.
    intros Hcf Ho [Hw Hd] Hoo Hsub Hok Hfail. unfold g_copy_assign.
    rbind. eapply (runs_g_copy_ctor o lo capo ho); try done.
    - by rewrite Hw.
    - intros v' cap' hn w' Ho' Hh' He' Hal'. rewrite Hw in Hh'.
      unfold vec_swap, swap_data. simpl.
      rbind. eapply runs_g_destroy_tmp; [by apply nowns_move|done|exact Hh'|].
      intros w2 Hh2 He2. apply runs_ret. eapply Hok; [by apply nowns_move|done|by rewrite He2|done].
    - intros e w' Hw' He'. apply runs_ret. by apply Hfail.
  Qed.

  Lemma runs_g_move_assign v l cap h o lo capo ho hf w (Q : _ -> W -> Prop) :
    nowns v l cap h -> nowns o lo capo ho -> m_allocator v = m_allocator o ->
    heap_is w h (ho ∪ hf) -> ho ##ₘ hf ->
    (forall v' o' w', nowns v' lo capo ho -> nowns o' [] 0 ∅ ->
       m_allocator v' = m_allocator o -> m_allocator o' = m_allocator o ->
       w_heap w' = ho ∪ hf -> w_err w' = w_err w -> Q (v', o') w') ->
    runs (g_move_assign des v o) w Q.
  Proof.
    intros Ho Hoo Hal Hh Hd HQ. unfold g_move_assign, vec_move_ctor, swap_data. simpl.
    rbind. eapply (runs_g_vec_destroy cf Own des Hdes); [by apply nowns_move|done|].
    intros w' Hw' He'. apply runs_ret. apply HQ; try done.
    - by apply nowns_move.
    - apply nowns_nulls.
  Qed.
End generic.

(** ** A vector as an element *)

Section element.
  Context {T : Type} (cf : cfg (val T)) (Own : val T -> deep T -> gmap addr (vblock (val T)) -> Prop).
  Context (cons : ptr -> arg (val T) -> M (vblock (val T)) unit) (des : ptr -> M (vblock (val T)) unit).
  Notation W := (world (vblock (val T))).
  Hypothesis (Hcf : cfg_ok cf) (Hcons : cons_ok Own cons) (Hdes : des_ok Own des).

  Definition vec_own (v : val T) (x : deep T) (h : gmap addr (vblock (val T))) : Prop :=
    exists o xs cap, v = VVec o /\ x = DList xs /\ nvec_owns cf Own o xs cap h.

  Lemma vec_des_ok : des_ok vec_own (vec_des des).
  Proof.
    intros w b o blk v x hx hr Q Hw Hd Hb Ho Hl (u & xs & cap & -> & -> & Hown) HQ. unfold vec_des.
    rbind. eapply runs_read; [by rewrite Hw; apply lookup_union_Some_r|done|done|].
    simpl. rbind. apply runs_ret. rbind.
    eapply (runs_g_vec_destroy cf Own des Hdes); [done|by split|].
    intros w1 Hw1 He1. eapply runs_destroy1; [by rewrite Hw1|done|done|].
    apply HQ; simpl; [by rewrite Hw1|done].
  Qed.

  Lemma arg_val_heap w w' a (v : val T) :
    arg_val w a v ->
    (forall b blk o x, w_heap w !! b = Some blk -> b_live blk !! o = Some x ->
       exists blk', w_heap w' !! b = Some blk' /\ b_room blk' = b_room blk /\ b_live blk' !! o = Some x) ->
    arg_val w' a v.
  Proof.
    intros Ha H. destruct a as [y|[|b o]]; simpl in *; [done..|].
    unfold read, load_block, load, bind, get_heap in *.
    destruct (w_heap w !! b) as [blk|] eqn:E; simpl in Ha; [|done].
    case_decide as Ho; [|done]. destruct (b_live blk !! o) as [x|] eqn:Ex; [|done]. unfold ret in Ha. simplify_eq.
    destruct (H b blk o v E Ex) as (blk' & -> & Hr & Hl). simpl. rewrite Hr, decide_True by done. by rewrite Hl.
  Qed.

  Lemma vec_cons_copy_ok : cons_ok vec_own (vec_cons_copy cf cons des).
  Proof.
    intros w b o blk a v x hx Q He Ha (u & xs & cap & -> & -> & Hown) Hsub Hxb Hb Ho Hl Hok Hfail.
    unfold vec_cons_copy. rbind. apply runs_tick_ctor.
    rbind. eapply runs_read_arg.
    { eapply arg_val_heap; [exact Ha|]. simpl. eauto. }
    simpl. rbind. apply runs_ret. rbind.
    eapply (runs_g_copy_ctor cf Own cons des Hcons Hdes); [done|done|done| |].
    - intros v' cap' hn w' Ho' [Hw' Hd'] He' Hal. simpl in Hw', Hd'.
      assert (Hb' : w_heap w' !! b = Some blk) by (rewrite Hw'; by apply lookup_union_Some_r).
      eapply runs_place; [done..|].
      eapply (Hok _ (VVec v') hn); simpl.
      + by exists v', xs, cap'.
      + done.
      + rewrite Hw'. by destruct (h_ins hn (w_heap w) b _ (bput blk o (VVec v')) Hd' Hb) as [<- _].
      + by rewrite He'.
    - intros e w' Hw' He'. apply runs_put_err. eapply Hfail; simpl; done.
  Qed.

  Lemma vec_cons_init_ok : cons_ok vec_own (vec_cons_init cf cons des).
  Proof.
    intros w b o blk a v x hx Q He Ha (u & xs & cap & -> & -> & Hown) Hsub Hxb Hb Ho Hl Hok Hfail.
    unfold vec_cons_init. rbind. apply runs_tick_ctor.
    rbind. eapply runs_place; [done..|]. simpl.
    set (blk1 := Block (b_alloc blk) (b_req blk) (b_room blk) (<[o:=VVec (vec_new (c_dflt cf))]> (b_live blk))).
    set (w1 := set_heap _ _).
    assert (Hw1 : w_heap w1 = <[b:=blk1]> (w_heap w)) by done.
    assert (He1 : w_err w1 = None) by done.
    clearbody w1.
    rbind. eapply runs_read_arg.
    { eapply arg_val_heap; [exact Ha|]. intros b' blk' o' x' Hb' Hx'. rewrite Hw1.
      destruct (decide (b = b')) as [<-|].
      - rewrite lookup_insert. simplify_eq. eexists. split; [done|]. split; [done|]. simpl.
        rewrite lookup_insert_ne; [done|]. intros ->. congruence.
      - rewrite lookup_insert_ne by done. eauto. }
    simpl. rbind. apply runs_ret.
    rbind. eapply runs_read; [by rewrite Hw1, lookup_insert|done|simpl; by rewrite lookup_insert|].
    simpl. rbind. apply runs_ret.
    rbind. eapply (runs_g_copy cf Own cons des Hcons Hdes (vec_new (c_dflt cf)) [] 0 ∅ u xs cap hx (w_heap w1)); try done.
    { apply nowns_new. }
    { by apply heap_is_empty. }
    { rewrite (left_id_L ∅ (∪)), Hw1. by apply insert_subseteq_r. }
    intros v' cap' hn w2 k Hal Hk Ho' [Hw2 Hd2] Hcase.
    assert (Hb1 : w_heap w1 !! b = Some blk1) by (by rewrite Hw1, lookup_insert).
    assert (Hb2 : w_heap w2 !! b = Some blk1) by (rewrite Hw2; by apply lookup_union_Some_r).
    rbind. eapply runs_overwrite; [done|done|simpl; by rewrite lookup_insert|].
    assert (Hd0 : hn ##ₘ w_heap w).
    { rewrite Hw1 in Hd2. by apply map_disjoint_insert_r in Hd2 as [_ ?]. }
    set (w3 := set_heap _ _).
    assert (Hw3 : w_heap w3 = hn ∪ <[b:=bput blk o (VVec v')]> (w_heap w)).
    { subst w3. simpl. rewrite Hw2, insert_insert. fold (bput blk o (VVec v')).
      destruct (h_ins hn (w_heap w1) b _ (bput blk o (VVec v')) Hd2 Hb1) as [-> _].
      by rewrite Hw1, insert_insert. }
    assert (He3 : w_err w3 = w_err w2) by done.
    clearbody w3.
    rbind. apply runs_has_err. rewrite He3.
    destruct Hcase as [[He2 ->]|(e & He2 & _)]; rewrite He2.
    - apply runs_ret. rewrite take_ge in Ho' by done. eapply (Hok w3 (VVec v') hn); [|done|done|congruence].
      by exists v', xs, cap'.
    - eapply (vec_des_ok w3 b o (bput blk o (VVec v')) (VVec v') (DList (take k xs)) hn (<[b:=bput blk o (VVec v')]> (w_heap w))).
      + done.
      + by destruct (h_ins hn (w_heap w) b _ (bput blk o (VVec v')) Hd0 Hb) as [_ ?].
      + by rewrite lookup_insert.
      + done.
      + simpl. by rewrite lookup_insert.
      + by exists v', (take k xs), cap'.
      + intros w4 Hw4 He4. eapply (Hfail w4 e); [|congruence].
        rewrite Hw4, insert_insert. unfold bdel, bput. simpl. rewrite delete_insert by done.
        destruct blk; simpl. by rewrite insert_id.
  Qed.
End element.

(** ** Any depth *)

Section depth.
  Context {T : Type} (lc : nat -> cfg (val T)) (ex : bool).
  Notation W := (world (vblock (val T))).
  Hypothesis Hlc : forall d, cfg_ok (lc d).

  Lemma ndes_ok d : des_ok (obj_owns lc d) (ndes d).
  Proof.
    induction d as [|d IH].
    - intros w b o blk v x hx hr Q Hw Hd Hb Ho Hl (t & -> & -> & ->) HQ.
      rewrite (left_id_L ∅ (∪)) in Hw. simpl. eapply runs_destroy1; [by rewrite Hw|done|done|].
      apply HQ; simpl; [by rewrite Hw|done].
    - apply vec_des_ok. exact IH.
  Qed.

  Lemma ncons_ok d : cons_ok (obj_owns lc d) (ncons lc ex d).
  Proof.
    induction d as [|d IH].
    - intros w b o blk a v x hx Q He Ha (t & -> & -> & ->) Hsub Hxb Hb Ho Hl Hok Hfail. simpl.
      eapply runs_construct_at; [done|exact Ha|done..| |].
      + intros orc. eapply (Hok _ (VElem t) ∅); simpl; [by exists t|apply map_disjoint_empty_l|by rewrite (left_id_L ∅ (∪))|done].
      + intros orc code _. by eapply Hfail.
    - simpl. destruct ex.
      + apply vec_cons_copy_ok; [done|done|apply ndes_ok].
      + apply vec_cons_init_ok; [done|done|apply ndes_ok].
  Qed.
End depth.
