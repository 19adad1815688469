(** * Insertion *)
From Verif Require Export RbSet.

Section insert.
  Context {V : Type} {L : limit} (cf : cfg V) (comp : V -> V -> bool).
  Notation H := (gmap addr (tcell V)).
  Notation W := (world (tcell V)).
  Notation E := (addr * V)%type.
  Implicit Types h hf : H.
  Implicit Types w : W.
  Implicit Types t s : tree V.
  Implicit Types n : nat.
  Implicit Types k : @ctx V.
  Implicit Types o : tset.
  Implicit Types xs : list E.
  Notation addrs t := (elems t).*1.
  Notation sin := (sin comp).

  Lemma cpre_kapp (k1 k2 : @ctx V) : cpre (kapp k1 k2) = cpre k2 ++ cpre k1.
  Proof.
    induction k1 as [|[] c a v s k IH]; simpl; rewrite ?IH, ?app_nil_r; try done; by rewrite <-!(assoc_L (++)).
  Qed.
  Lemma cpost_kapp (k1 k2 : @ctx V) : cpost (kapp k1 k2) = cpost k1 ++ cpost k2.
  Proof.
    induction k1 as [|[] c a v s k IH]; simpl; rewrite ?IH; try done; by rewrite <-!(assoc_L (++)).
  Qed.
  Lemma max_split t : t <> Leaf -> exists k c a v l, t = plug k (Node c a v l Leaf) /\ cpost k = [].
  Proof.
    induction t as [|c a v l _ r IHr]; [done|]. intros _. destruct r as [|c' a' v' l' r'].
    - by exists Top, c, a, v, l.
    - destruct IHr as (k & c0 & a0 & v0 & l0 & -> & Hk); [done|].
      exists (kapp k (Frame DR c a v l Top)), c0, a0, v0, l0. rewrite plug_kapp, cpost_kapp, Hk. done.
  Qed.

  Lemma pos_at xs i v :
    swo comp -> asc comp xs ->
    (forall p, last (take i xs) = Some p -> comp p.2 v = true) ->
    (forall p, head (drop i xs) = Some p -> comp v p.2 = true) ->
    (forall p, p ∈ take i xs -> comp p.2 v = true) /\ (forall p, p ∈ drop i xs -> comp v p.2 = true).
  Proof.
    intros Hswo Ha Hl Hh. rewrite <-(take_drop i xs) in Ha. apply asc_app in Ha as (Ha1 & Ha2 & _). split.
    - destruct (take i xs) as [|q X _] using rev_ind; [set_solver|]. specialize (Hl q). rewrite last_snoc in Hl.
      intros p [Hp|Hp]%elem_of_app; [|apply elem_of_list_singleton in Hp as ->; auto].
      eapply comp_trans; [done| |by apply Hl]. apply asc_app in Ha1 as (_ & _ & Ha1). apply Ha1; [done|set_solver].
    - destruct (drop i xs) as [|q X]; [set_solver|]. specialize (Hh q eq_refl).
      intros p [->|Hp]%elem_of_cons; [done|]. eapply comp_trans; [done|exact Hh|]. by apply Ha2.
  Qed.

  (** ** insert *)

  (** [create_spec], keeping the outcome of the call. *)
  Lemma create_eq o x v w (Q : option addr -> W -> Prop) :
    w_err w = None -> rd (w_heap w) x v ->
    (forall a orc, w_heap w !! a = None ->
       tcreate_node cf o x w = Done (Some a) (World (<[a := fresh_cell o v]> (w_heap w)) orc None (S (w_allocs w)) (S (w_ctors w))) ->
       Q (Some a) (World (<[a := fresh_cell o v]> (w_heap w)) orc None (S (w_allocs w)) (S (w_ctors w)))) ->
    (forall w' e, w_heap w' = w_heap w -> w_err w' = Some e -> tnode_error cf e ->
       tcreate_node cf o x w = Done None w' -> Q None w') ->
    runs (tcreate_node cf o x) w Q.
  Proof.
    intros He Hx Hok Hfail.
    assert (runs (tcreate_node cf o x) w (fun r w' => tcreate_node cf o x w = Done r w' -> Q r w')) as (r & w' & Hr & HQ).
    { eapply create_spec; [done|exact Hx| |].
      - intros a orc Ha Hmk. by apply Hok.
      - intros w' e Hw He' Hne Hmk. by eapply Hfail. }
    exists r, w'. split; [done|by apply HQ].
  Qed.

  Lemma m_insert_spec o xs k xo hf x v w (Q : addr -> W -> Prop) :
    swo comp -> sin o xs (w_heap w) hf (plug k Leaf) -> pos_ok comp xo k v ->
    rd (w_heap w) x v -> w_err w = None ->
    (forall a h' t' orc, w_heap w !! a = None -> sin o (cpre k ++ (a, v) :: cpost k) h' hf t' ->
       tcreate_node cf o x w = Done (Some a) (World (<[a := fresh_cell o v]> (w_heap w)) orc None (S (w_allocs w)) (S (w_ctors w))) ->
       Q a (World h' orc None (S (w_allocs w)) (S (w_ctors w)))) ->
    (forall w' e, w_heap w' = w_heap w -> w_err w' = Some e -> tnode_error cf e -> tcreate_node cf o x w = Done None w' -> Q (t_end o) w') ->
    runs (m_insert cf comp o xo (cpar (t_hdr o) k) x) w Q.
  Proof.
    intros Hswo Hs Hpos Hx He Hok Hfail. unfold m_insert. rbind.
    eapply side_spec; [done|done|exact Hs|exact Hpos|by apply rd_reads|].
    rbind. eapply create_eq; [done|exact Hx| |].
    - intros a orc Ha Hmk. rbind. apply runs_has_err. simpl. rbind. apply runs_deref.
      destruct Hs as (Ht & HE & Hrb & Hasc).
      destruct (tin_frame_alloc _ _ _ _ _ _ _ _ a (fresh_cell o v) Ht Ha) as [Ht' Hfa].
      eapply (link_spec comp o xs k (<[a := fresh_cell o v]> hf) a (fresh_cell o v) v).
      + done.
      + split_and!; done.
      + destruct Hpos as (? & ? & _). split_and!; [done|done|done].
      + apply lookup_insert.
      + done.
      + done.
      + intros h' t' Hs'. rewrite delete_insert in Hs' by done. unfold set_heap; simpl. by eapply Hok.
    - intros w' e Hw' He' Hne Hmk. rbind. apply runs_has_err. rewrite He'. apply runs_ret. by eapply Hfail.
  Qed.

  Lemma insert_unique_spec o xs t hf x v w (Q : addr * bool -> W -> Prop) :
    swo comp -> sin o xs (w_heap w) hf t -> rd (w_heap w) x v -> w_err w = None ->
    (forall a pre post h' t' orc, xs = pre ++ post -> w_heap w !! a = None -> sin o (pre ++ (a, v) :: post) h' hf t' ->
       tcreate_node cf o x w = Done (Some a) (World (<[a := fresh_cell o v]> (w_heap w)) orc None (S (w_allocs w)) (S (w_ctors w))) ->
       Q (a, true) (World h' orc None (S (w_allocs w)) (S (w_ctors w)))) ->
    (forall i a u, xs !! i = Some (a, u) -> comp u v = false -> comp v u = false -> Q (a, false) w) ->
    (forall w' e, w_heap w' = w_heap w -> w_err w' = Some e -> tnode_error cf e ->
       (forall p, p ∈ xs -> comp p.2 v = true \/ comp v p.2 = true) ->
       tcreate_node cf o x w = Done None w' -> Q (t_end o, true) w') ->
    runs (insert_unique cf comp o x) w Q.
  Proof.
    intros Hswo Hs Hx He Hok Hold Hfail. unfold insert_unique. rbind.
    pose proof Hs as (Ht & HE & Hrb & Ha). subst xs.
    eapply unique_pos_find; [done|exact Ht|done|done|exact Hx| |].
    - intros k Hk Hpre Hpost. rbind. rewrite <-Hk in Hs.
      assert (elems t = cpre k ++ cpost k) as HE by (by rewrite <-Hk, elems_plug).
      eapply m_insert_spec; [done|exact Hs|done|exact Hx|done| |].
      + intros a h' t' orc Hfa Hs' Hmk. apply runs_ret. eapply Hok; [exact HE|done|exact Hs'|exact Hmk].
      + intros w' e Hw' He' Hne Hmk. apply runs_ret. eapply Hfail; [done|done|done| |done].
        rewrite HE. intros p [Hp|Hp]%elem_of_app; auto.
    - intros i j u Hi H1 H2. rbind. apply runs_deref. apply runs_ret. by eapply Hold.
  Qed.

  (** ** insert with a hint *)

  Lemma hint_pos_find o xs t hf i kt kv w (Q : option addr * option addr -> W -> Prop) :
    swo comp -> sin o xs (w_heap w) hf t -> rd (w_heap w) kt kv -> 
    (forall xo k, plug k Leaf = t -> pos_ok comp xo k kv -> Q (xo, Some (cpar (t_hdr o) k)) w) ->
    (forall i j v, xs !! i = Some (j, v) -> comp v kv = false -> comp kv v = false -> Q (Some j, None) w) ->
    runs (insert_hint_unique_pos comp o (tpos (t_hdr o) xs i) kt) w Q.
  Proof.
    intros Hswo Hs Hk Hnew Hold. pose proof Hs as (Ht & HE & Hrb & Ha). subst xs. set (xs := elems t) in *.
    assert (runs (insert_unique_pos comp o kt) w Q) as Hfull.
    { eapply unique_pos_find; [done|exact Ht|done|done|exact Hk| |done].
      intros k Hp Hpre Hpost. apply Hnew; [done|]. by split_and!. }
    assert (forall i k xo, plug k Leaf = t -> cpre k = take i xs -> cpost k = drop i xs ->
      (forall p, last (take i xs) = Some p -> comp p.2 kv = true) ->
      (forall p, head (drop i xs) = Some p -> comp kv p.2 = true) ->
      (xo <> None -> goes_left k = true) -> Q (xo, Some (cpar (t_hdr o) k)) w) as Hat.
    { intros i' k xo Hp Hpre Hpost Hl Hh Hd. apply Hnew; [done|].
      destruct (pos_at xs i' kv Hswo Ha Hl Hh) as [H1 H2]. split_and!; [by rewrite Hpre|by rewrite Hpost|done]. }
    unfold insert_hint_unique_pos, t_end.
    destruct (decide (tpos (t_hdr o) xs i = t_hdr o)) as [Hend|Hend].
    - (* at the end *)
      rbind. unfold t_size. eapply runs_get_count; [exact (tin_hdr _ _ _ _ _ _ _ _ Ht)|].
      destruct (decide (0 < length xs)) as [Hlen|Hlen].
      2: { rbind. by apply runs_ret. }
      rbind. rbind. eapply (runs_get_rm (t_hdr o)); [exact (tin_hdr _ _ _ _ _ _ _ _ Ht)|].
      rbind. apply runs_deref.
      assert (t <> Leaf) as Hne. { intros ->. simpl in Hlen. lia. }
      destruct (max_split t Hne) as (k & c & a & v & l & Hp & Hpost).
      assert (xs = (cpre k ++ elems l) ++ [(a, v)]) as HE.
      { unfold xs. rewrite Hp, elems_plug, Hpost. simpl. by rewrite app_nil_r, (assoc_L (++)). }
      assert (last_of (t_hdr o) xs = a) as Hlast by (by rewrite HE, last_snoc'). rewrite Hlast.
      rbind. pose proof Ht as Ht'. rewrite Hp in Ht'. eapply runs_tread_node; [exact Ht'|].
      rbind. apply (rd_reads _ _ kv); [done|]. apply runs_ret. destruct (comp v kv) eqn:Ec; [|done].
      rbind. eapply (runs_get_rm (t_hdr o)); [exact (tin_hdr _ _ _ _ _ _ _ _ Ht)|]. rewrite Hlast. apply runs_ret.
      apply (Hat (length xs) (Frame DR c a v l k)); simpl.
      + done.
      + rewrite take_ge by lia. by rewrite HE, (assoc_L (++)).
      + by rewrite drop_ge by lia.
      + rewrite take_ge by lia. rewrite HE, last_snoc. by intros ? [= <-].
      + by rewrite drop_ge by lia.
      + done.
    - (* at an element *)
      assert (i < length xs) as Hi. { destruct (decide (length xs <= i)); [|lia]. by rewrite tpos_end in Hend. }
      apply lookup_lt_is_Some in Hi as [[pos vi] Hi]. rewrite (tpos_some _ _ _ _ _ Hi) in *.
      destruct (find_ctx t i pos vi Hi) as (kp & c & l & r & Hp & Hpre & Hpost). fold xs in Hpre, Hpost.
      pose proof Ht as Htp. rewrite Hp in Htp.
      pose proof (tin_node _ _ _ _ _ _ _ _ _ _ _ _ _ Htp) as Hcell.
      assert (NoDup (xs.*1)) as Hnd.
      { pose proof (tin_nodup _ _ _ _ _ _ _ _ Ht) as Hn. apply NoDup_cons in Hn as [_ Hn]. exact Hn. }
      pose proof (lookup_lt_Some _ _ _ Hi) as Hlt.
      assert (drop i xs = (pos, vi) :: drop (S i) xs) as Hdrop by (by apply drop_S).
      rbind. apply (rd_reads _ _ kv); [done|]. rbind. eapply runs_tread_node; [exact Htp|].
      destruct (comp kv vi) eqn:Ec.
      + (* before pos *)
        rbind. eapply (runs_get_lm (t_hdr o)); [exact (tin_hdr _ _ _ _ _ _ _ _ Ht)|].
        assert (forall k xo, plug k Leaf = t -> cpre k = take i xs -> cpost k = drop i xs ->
          (forall p, last (take i xs) = Some p -> comp p.2 kv = true) ->
          (xo <> None -> goes_left k = true) -> Q (xo, Some (cpar (t_hdr o) k)) w) as Hat'.
        { intros k xo ? ? ? ? ?. eapply (Hat i k); [done..| |done]. rewrite Hdrop. by intros ? [= <-]. }
        clear Hat.
        destruct (decide (Some (first_of (t_hdr o) xs) = Some pos)) as [[= Hfst]|Hfst].
        * rewrite Hfst. apply runs_ret.
          assert (i = 0) as ->.
          { rewrite <-(take_drop i xs), Hdrop in Hnd, Hfst. destruct (take i xs) as [|[a0 v0] X] eqn:EX.
            - destruct i; [done|]. destruct xs; [simpl in *; lia|done].
            - unfold first_of in Hfst. simpl in Hfst. subst a0. csimpl in Hnd. apply NoDup_cons in Hnd as [Hnd _].
              exfalso. apply Hnd. rewrite fmap_app. csimpl. set_solver. }
          simpl in Hpre. apply app_eq_nil in Hpre as [Hpre Hl].
          assert (l = Leaf) as ->. { destruct l as [|? ? ? ll lr]; [done|]. simpl in Hl. by destruct (elems ll). }
          apply (Hat' (Frame DL c pos vi r kp)); simpl; [done|done| |done|done]. rewrite Hdrop, <-Hpost. done.
        * destruct i as [|i'].
          { exfalso. apply Hfst. rewrite drop_0 in Hdrop. by rewrite Hdrop. }
          rbind.
          pose proof (runs_dec comp o xs hf t i' w) as Hdec. rewrite (tpos_some _ _ _ _ _ Hi) in Hdec.
          eapply Hdec; [split_and!; done|lia|]. clear Hdec.
          assert (i' < length xs) as Hi' by lia. apply lookup_lt_is_Some in Hi' as [[bf vb] Hb].
          rewrite (tpos_some _ _ _ _ _ Hb).
          destruct (find_ctx t i' bf vb Hb) as (kb & cb & lb & rb' & Hpb & Hpreb & Hpostb). fold xs in Hpreb, Hpostb.
          pose proof Ht as Htb. rewrite Hpb in Htb. pose proof (tin_node _ _ _ _ _ _ _ _ _ _ _ _ _ Htb) as Hcb.
          rbind. eapply runs_tread_node; [exact Htb|]. rbind. apply (rd_reads _ _ kv); [done|].
          destruct (comp vb kv) eqn:Ecb; [|exact Hfull].
          assert (take (S i') xs = take i' xs ++ [(bf, vb)]) as Htk by (by apply take_S_r).
          rbind. eapply (runs_get_child _ DR); [exact Hcb|].
          destruct (root rb') as [rb0|] eqn:Erb; apply runs_ret.
          -- assert (l = Leaf) as ->.
             { destruct l as [|cl zl vl ll lr] eqn:El; [done|]. exfalso. rewrite <-El in *.
               destruct (max_split l) as (km & cm & m & vm & lm' & Hm & Hkm); [by rewrite El|].
               assert (m = bf) as ->.
               { rewrite Htk, Hm, elems_plug, Hkm in Hpre. simpl in Hpre.
                 rewrite app_nil_r, !(assoc_L (++)) in Hpre. apply app_inj_tail in Hpre as [_ Hpre]. congruence. }
               rewrite Hm in Hp.
               assert (t = plug (kapp km (Frame DL c pos vi r kp)) (Node cm bf vm lm' Leaf)) as Hp'.
               { rewrite plug_kapp. done. }
               pose proof Ht as Htm. rewrite Hp' in Htm. pose proof (tin_node _ _ _ _ _ _ _ _ _ _ _ _ _ Htm) as Hcm.
               rewrite Hcm in Hcb. apply (f_equal (fun x => x ≫= tn_right)) in Hcb. simpl in Hcb. congruence. }
             apply (Hat' (Frame DL c pos vi r kp)); simpl; [done| | | |done].
             ++ rewrite <-Hpre. simpl. by rewrite app_nil_r.
             ++ rewrite Hdrop, <-Hpost. done.
             ++ rewrite Htk, last_snoc. by intros ? [= <-].
          -- assert (rb' = Leaf) as -> by (by destruct rb').
             apply (Hat' (Frame DR cb bf vb lb kb)); simpl; [done| | | |done].
             ++ rewrite Htk, <-Hpreb. by rewrite (assoc_L (++)).
             ++ rewrite <-Hpostb. done.
             ++ rewrite Htk, last_snoc. by intros ? [= <-].
      + (* not before pos *)
        rbind. eapply runs_tread_node; [exact Htp|]. rbind. apply (rd_reads _ _ kv); [done|].
        destruct (comp vi kv) eqn:Ec2; [|apply runs_ret; by eapply Hold].
        rbind. eapply (runs_get_rm (t_hdr o)); [exact (tin_hdr _ _ _ _ _ _ _ _ Ht)|].
        assert (take (S i) xs = take i xs ++ [(pos, vi)]) as Htk by (by apply take_S_r).
        assert (forall k xo, plug k Leaf = t -> cpre k = take (S i) xs -> cpost k = drop (S i) xs ->
          (forall p, head (drop (S i) xs) = Some p -> comp kv p.2 = true) ->
          (xo <> None -> goes_left k = true) -> Q (xo, Some (cpar (t_hdr o) k)) w) as Hat'.
        { intros k xo ? ? ? ? ?. eapply (Hat (S i) k); [done..| |done|done]. rewrite Htk, last_snoc. by intros ? [= <-]. }
        clear Hat.
        assert (r = Leaf -> plug (Frame DR c pos vi l kp) Leaf = t /\ cpre (Frame DR c pos vi l kp) = take (S i) xs /\
           cpost (Frame DR c pos vi l kp) = drop (S i) xs) as Hright.
        { intros ->. simpl. split_and!; [done| |done]. rewrite Htk, <-Hpre. by rewrite (assoc_L (++)). }
        destruct (decide (Some (last_of (t_hdr o) xs) = Some pos)) as [[= Hlst]|Hlst].
        * rewrite Hlst. apply runs_ret.
          assert (drop (S i) xs = []) as Hnil.
          { rewrite <-(take_drop (S i) xs), Htk in Hnd, Hlst. destruct (drop (S i) xs) as [|[a0 v0] X _] eqn:EX using rev_ind; [done|].
            exfalso. rewrite (assoc_L (++)), last_snoc' in Hlst. subst a0.
            eapply (nodup_perm _ (pos :: pos :: (take i xs).*1 ++ X.*1)) in Hnd.
            - apply NoDup_cons in Hnd as [Hnd _]. apply Hnd. by left.
            - rewrite !fmap_app. csimpl. perm_solve. }
          assert (r = Leaf) as Hr.
          { rewrite Hnil in Hpost. apply app_eq_nil in Hpost as [Hl _]. destruct r as [|? ? ? ll lr]; [done|]. simpl in Hl. by destruct (elems ll). }
          destruct (Hright Hr) as (? & ? & ?). apply (Hat' (Frame DR c pos vi l kp)); [done..| |done]. by rewrite Hnil.
        * assert (S i < length xs) as Hi2.
          { destruct (decide (S i = length xs)) as [Heq|]; [|lia]. exfalso. apply Hlst. f_equal.
            rewrite <-(take_ge xs (S i)) by lia. by rewrite Htk, last_snoc'. }
          apply lookup_lt_is_Some in Hi2 as [[af va] Hb].
          rbind. pose proof (runs_inc comp o xs hf t i w) as Hinc. rewrite (tpos_some _ _ _ _ _ Hi), (tpos_some _ _ _ _ _ Hb) in Hinc.
          eapply Hinc; [split_and!; done|lia|]. clear Hinc.
          rbind. apply (rd_reads _ _ kv); [done|].
          destruct (find_ctx t (S i) af va Hb) as (ka & ca & la & ra & Hpa & _).
          pose proof Ht as Hta. rewrite Hpa in Hta. rbind. eapply runs_tread_node; [exact Hta|]. clear ka ca la ra Hpa Hta.
          destruct (comp kv va) eqn:Eca; [|exact Hfull].
          assert (drop (S i) xs = (af, va) :: drop (S (S i)) xs) as Hdrop2 by (by apply drop_S).
          rbind. eapply (runs_get_child _ DR); [exact Hcell|].
          destruct r as [|cr zr vr rl rr] eqn:Er; simpl root; cbv iota; apply runs_ret.
          -- destruct (Hright eq_refl) as (? & ? & ?). apply (Hat' (Frame DR c pos vi l kp)); [done..| |done].
             rewrite Hdrop2. by intros ? [= <-].
          -- rewrite <-Er in *. destruct (min_split r) as (km & cm & m & vm & rm' & Hm & Hkm); [by rewrite Er|].
             assert ((m, vm) = (af, va)) as [= -> ->].
             { rewrite Hdrop2, Hm, elems_plug, Hkm in Hpost. simpl in Hpost. congruence. }
             apply (Hat' (Frame DL cm af va rm' (kapp km (Frame DR c pos vi l kp)))); simpl.
             ++ rewrite plug_kapp. simpl. by rewrite <-Hm, <-Hp.
             ++ rewrite cpre_kapp, Hkm. simpl. rewrite app_nil_r, Htk, <-Hpre. by rewrite (assoc_L (++)).
             ++ rewrite cpost_kapp. simpl. rewrite <-Hpost, Hm, elems_plug, Hkm. simpl. by rewrite (assoc_L (++)).
             ++ rewrite Hdrop2. by intros ? [= <-].
             ++ done.
  Qed.

  Lemma insert_at_spec o xs t hf i x v w (Q : addr -> W -> Prop) :
    swo comp -> sin o xs (w_heap w) hf t -> rd (w_heap w) x v -> w_err w = None ->
    (forall a pre post h' t' orc, xs = pre ++ post -> w_heap w !! a = None -> sin o (pre ++ (a, v) :: post) h' hf t' ->
       tcreate_node cf o x w = Done (Some a) (World (<[a := fresh_cell o v]> (w_heap w)) orc None (S (w_allocs w)) (S (w_ctors w))) ->
       Q a (World h' orc None (S (w_allocs w)) (S (w_ctors w)))) ->
    (forall i a u, xs !! i = Some (a, u) -> comp u v = false -> comp v u = false -> Q a w) ->
    (forall w' e, w_heap w' = w_heap w -> w_err w' = Some e -> tnode_error cf e ->
       (forall p, p ∈ xs -> comp p.2 v = true \/ comp v p.2 = true) ->
       tcreate_node cf o x w = Done None w' -> Q (t_end o) w') ->
    runs (insert_unique_at cf comp o (tpos (t_hdr o) xs i) x) w Q.
  Proof.
    intros Hswo Hs Hx He Hok Hold Hfail. unfold insert_unique_at. rbind.
    eapply hint_pos_find; [done|exact Hs|exact Hx| |].
    - intros xo k Hk Hpos. pose proof Hs as (_ & HE0 & _). rewrite <-Hk in Hs.
      assert (xs = cpre k ++ cpost k) as HE by (by rewrite <-HE0, <-Hk, elems_plug).
      eapply m_insert_spec; [done|exact Hs|exact Hpos|exact Hx|done| |].
      + intros a h' t' orc Hfa Hs' Hmk. eapply Hok; [exact HE|done|exact Hs'|exact Hmk].
      + intros w' e Hw' He' Hne Hmk. eapply Hfail; [done|done|done| |done].
        destruct Hpos as (Hpre & Hpost & _). rewrite HE. intros p [Hp|Hp]%elem_of_app; auto.
    - intros i' j u Hi H1 H2. apply runs_deref. by eapply Hold.
  Qed.

  (** ** emplace *)

  Lemma m_insert_node_spec o xs k xo hf z cz v w (Q : addr -> W -> Prop) :
    swo comp -> sin o xs (w_heap w) hf (plug k Leaf) -> pos_ok comp xo k v ->
    hf !! z = Some cz -> tn_body cz = TNode (t_alloc o) (Some v) ->
    (forall h' t', sin o (cpre k ++ (z, v) :: cpost k) h' (delete z hf) t' -> Q z (set_heap h' w)) ->
    runs (m_insert_node comp o xo (cpar (t_hdr o) k) z) w Q.
  Proof.
    intros Hswo Hs Hpos Hz Hcz HQ. unfold m_insert_node. rbind.
    eapply side_spec; [done|done|exact Hs|exact Hpos| |].
    { intros Q' HQ'. destruct Hs as (Ht & _). eapply runs_tread; [|exact Hcz|exact HQ'].
      rewrite (tin_out _ _ _ _ _ _ _ _ Ht); [done|]. intros Hin. apply (tin_none _ _ _ _ _ _ _ _ Ht) in Hin. congruence. }
    destruct Hpos as (? & ? & _).
    eapply link_spec; [done|exact Hs| |exact Hz|done|done|exact HQ]. split_and!; done.
  Qed.

  (** a node made, with its value *)
  Lemma created o xs t h hf a v :
    sin o xs h hf t -> h !! a = None ->
    sin o xs (<[a := fresh_cell o v]> h) (<[a := fresh_cell o v]> hf) t /\ hf !! a = None /\
    rd (<[a := fresh_cell o v]> h) (TARef a) v.
  Proof.
    intros (Ht & HE & Hrb & Hasc) Ha.
    destruct (tin_frame_alloc _ _ _ _ _ _ _ _ a (fresh_cell o v) Ht Ha) as [Ht' Hfa]. split_and!; try done.
    simpl. exists (fresh_cell o v), (t_alloc o). rewrite lookup_insert. done.
  Qed.

  Lemma emplace_spec o xs t hf x v w (Q : addr * bool -> W -> Prop) :
    swo comp -> sin o xs (w_heap w) hf t -> rd (w_heap w) x v -> w_err w = None ->
    (forall a pre post h' t' orc, xs = pre ++ post -> w_heap w !! a = None -> sin o (pre ++ (a, v) :: post) h' hf t' ->
       Q (a, true) (World h' orc None (S (w_allocs w)) (S (w_ctors w)))) ->
    (forall i a u orc, xs !! i = Some (a, u) -> comp u v = false -> comp v u = false ->
       Q (a, false) (World (w_heap w) orc None (S (w_allocs w)) (S (w_ctors w)))) ->
    (forall w' e, w_heap w' = w_heap w -> w_err w' = Some e -> tnode_error cf e -> Q (t_end o, false) w') ->
    runs (emplace_unique cf comp o x) w Q.
  Proof.
    intros Hswo Hs Hx He Hok Hold Hfail. unfold emplace_unique. rbind.
    eapply create_spec; [done|exact Hx| |].
    - intros a orc Ha. rbind. apply runs_has_err. simpl. rbind. apply runs_deref.
      destruct (created _ _ _ _ _ _ v Hs Ha) as (Hs' & Hfa & Hrd). pose proof Hs' as (Ht' & HE & Hrb & Hasc). subst xs.
      rbind. eapply unique_pos_find; [done|exact Ht'|done|done|exact Hrd| |].
      + intros k Hk Hpre Hpost. rewrite <-Hk in Hs'. rbind.
        assert (elems t = cpre k ++ cpost k) as HE by (by rewrite <-Hk, elems_plug).
        eapply m_insert_node_spec; [done|exact Hs'|done|apply lookup_insert|done|].
        intros h' t' Hs''. rewrite delete_insert in Hs'' by done. apply runs_ret. unfold set_heap; simpl. by eapply Hok.
      + intros i j u Hi H1 H2. rbind. eapply destroy_node_spec; [simpl; apply lookup_insert|done|]. simpl.
        rewrite delete_insert by done. rbind. apply runs_deref. apply runs_ret. by eapply Hold.
    - intros w' e Hw' He' Hne. rbind. apply runs_has_err. rewrite He'. apply runs_ret. by eapply Hfail.
  Qed.

  Lemma emplace_hint_spec o xs t hf i x v w (Q : addr -> W -> Prop) :
    swo comp -> sin o xs (w_heap w) hf t -> rd (w_heap w) x v -> w_err w = None ->
    (forall a pre post h' t' orc, xs = pre ++ post -> w_heap w !! a = None -> sin o (pre ++ (a, v) :: post) h' hf t' ->
       Q a (World h' orc None (S (w_allocs w)) (S (w_ctors w)))) ->
    (forall i a u orc, xs !! i = Some (a, u) -> comp u v = false -> comp v u = false ->
       Q a (World (w_heap w) orc None (S (w_allocs w)) (S (w_ctors w)))) ->
    (forall w' e, w_heap w' = w_heap w -> w_err w' = Some e -> tnode_error cf e -> Q (t_end o) w') ->
    runs (emplace_hint_unique cf comp o (tpos (t_hdr o) xs i) x) w Q.
  Proof.
    intros Hswo Hs Hx He Hok Hold Hfail. unfold emplace_hint_unique. rbind.
    eapply create_spec; [done|exact Hx| |].
    - intros a orc Ha. rbind. apply runs_has_err. simpl. rbind. apply runs_deref.
      destruct (created _ _ _ _ _ _ v Hs Ha) as (Hs' & Hfa & Hrd).
      rbind. eapply hint_pos_find; [done|exact Hs'|exact Hrd| |].
      + intros xo k Hk Hpos. pose proof Hs as (_ & HE0 & _). rewrite <-Hk in Hs'.
        assert (xs = cpre k ++ cpost k) as HE by (by rewrite <-HE0, <-Hk, elems_plug).
        eapply m_insert_node_spec; [done|exact Hs'|exact Hpos|apply lookup_insert|done|].
        intros h' t' Hs''. rewrite delete_insert in Hs'' by done. unfold set_heap; simpl. by eapply Hok.
      + intros i' j u Hi H1 H2. rbind. eapply destroy_node_spec; [simpl; apply lookup_insert|done|]. simpl.
        rewrite delete_insert by done. apply runs_deref. by eapply Hold.
    - intros w' e Hw' He' Hne. rbind. apply runs_has_err. rewrite He'. apply runs_ret. by eapply Hfail.
  Qed.
End insert.
