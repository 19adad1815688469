(** * Insertion and removal of a node, with their rebalancing *)
From Verif Require Export RbUnlink.

Section erase.
  Context {V : Type} {L : limit} (cf : cfg V) (al : alloc_id) (hdr : addr).
  Notation H := (gmap addr (tcell V)).
  Notation W := (world (tcell V)).
  Implicit Types h hf : H.
  Implicit Types w : W.
  Implicit Types t s : tree V.
  Implicit Types lm rm : addr.
  Implicit Types n : nat.
  Implicit Types k : @ctx V.
  Notation tin := (tin al hdr).
  Notation tat := (tree_at al).
  Notation addrs t := (elems t).*1.
  Notation caddrs k := ((cpre k).*1 ++ (cpost k).*1).

  (** A tree whose ends are recorded in the header. *)
  Notation tinE n h hf t := (tin (first_of hdr (elems t)) (last_of hdr (elems t)) n h hf t).

  Fixpoint kapp (k1 k2 : @ctx V) : @ctx V :=
    match k1 with Top => k2 | Frame d c a v s k => Frame d c a v s (kapp k k2) end.
  Lemma plug_kapp k1 k2 t : plug (kapp k1 k2) t = plug k2 (plug k1 t).
  Proof. revert t. induction k1 as [|d c a v s k IH]; intros t; simpl; [done|]. apply IH. Qed.
  Lemma cpar_kapp p k1 k2 : cpar p (kapp k1 k2) = cpar (cpar p k2) k1.
  Proof. by destruct k1. Qed.
  Lemma depth_kapp k1 k2 : depth (kapp k1 k2) = depth k1 + depth k2.
  Proof. induction k1 as [|d c a v s k IH]; simpl; [done|]. by rewrite IH. Qed.
  Lemma kapp_swap kr d c a v s k a' v' :
    let k1 := kapp kr (Frame d c a v s k) in
    let k2 := kapp kr (Frame d c a' v' s k) in
    ccol k1 = ccol k2 /\ (cnored k1 -> cnored k2) /\ (forall n, cbal n k1 -> cbal n k2).
  Proof.
    simpl. induction kr as [|d1 c1 a1 v1 s1 kr (IH1 & IH2 & IH3)]; simpl; [done|]. split_and!.
    - done.
    - rewrite <-IH1. tauto.
    - intros n. destruct c1; intros [? ?]; split; auto.
  Qed.

  Lemma rb_cut k c a v l r :
    rb (plug k (Node c a v l r)) -> l = Leaf \/ r = Leaf ->
    let x := match l with Leaf => r | _ => l end in
    exists m, nored x /\ cnored k /\ bal m x /\ (c = Black -> cbal (S m) k) /\ (c = Red -> tcol x = Black /\ cbal m k).
  Proof.
    intros (Hc & Hn & m & Hb) Hlr. simpl.
    apply plug_nored_inv in Hn as ((Hr & Hnl & Hnr) & Hk & _); [|done].
    apply plug_inv in Hb as (m' & Hb & Hk').
    destruct c; simpl in Hb.
    - destruct Hb as [Hbl Hbr]. exists m'. destruct (Hr eq_refl). split_and!; [by destruct l|done|by destruct l|done|].
      intros _. split; [by destruct l|done].
    - destruct Hb as (m0 & -> & Hbl & Hbr). exists m0. split_and!; [by destruct l|done|by destruct l|done|done].
  Qed.

  Lemma unlink_spec n hf k cz z vz l r w (Q : option addr * addr -> W -> Prop) :
    let t := plug k (Node cz z vz l r) in
    tinE n (w_heap w) hf t -> rb t ->
    (forall h' k' x c' p a b m,
       elems (plug k' x) = (cpre k ++ elems l) ++ (elems r ++ cpost k) ->
       tinE n h' (<[z := ncell al c' p a b vz]> hf) (plug k' x) ->
       nored x -> cnored k' -> bal m x ->
       (c' = Black -> cbal (S m) k') -> (c' = Red -> rb (plug k' x)) -> depth k' < height t ->
       Q (root x, cpar hdr k') (set_heap h' w)) ->
    runs (erase_unlink cf z hdr) w Q.
  Proof.
    intros t Ht Hrb HQ.
    assert ((l = Leaf \/ r = Leaf) \/ (l <> Leaf /\ r <> Leaf)) as [Hlr|[Hl Hr]].
    { destruct l; [auto|]. destruct r; [auto|]. right. done. }
    - eapply (unlink_one cf al hdr n hf k cz z vz l r); [done|done| |].
      { pose proof (tin_fits al hdr _ _ _ _ _ _ Ht Hrb) as Hf. unfold t in Hf.
        pose proof (plug_height k (Node cz z vz l r)) as Hp. simpl in Hp. destruct l; lia. }
      intros h' Ht'.
      destruct (rb_cut _ _ _ _ _ _ Hrb Hlr) as (m & H1 & H2 & H3 & H4 & H5).
      eapply HQ; [|exact Ht'|done|done|done|done| |].
      + rewrite elems_plug. rewrite <-!(assoc_L (++)). f_equal. rewrite (assoc_L (++)). f_equal.
        destruct l; [done|]. destruct Hlr as [Hlr|Hlr]; [done|]; rewrite Hlr. simpl. by rewrite app_nil_r.
      + intros ->. destruct (H5 eq_refl). eapply rb_plug; [done|done| |done|done]. congruence.
      + pose proof (plug_height k (Node cz z vz l r)) as Hp. simpl in Hp. fold t in Hp. lia.
    - destruct (min_split r Hr) as (kr & cy & y & vy & xr & -> & Hkr).
      eapply (unlink_two cf al hdr n hf k cz z vz l kr cy y vy xr); [done|done|done| |].
      { pose proof (tin_fits al hdr _ _ _ _ _ _ Ht Hrb) as Hf. unfold t in Hf.
        pose proof (plug_height k (Node cz z vz l (plug kr (Node cy y vy Leaf xr)))) as Hp. simpl in Hp. lia. }
      intros h' Ht'.
      assert (rb (plug (kapp kr (Frame DR cz z vz l k)) (Node cy y vy Leaf xr))) as Hrb'.
      { by rewrite plug_kapp. }
      destruct (rb_cut _ _ _ _ _ _ Hrb' ltac:(by left)) as (m & H1 & H2 & H3 & H4 & H5).
      destruct (kapp_swap kr DR cz z vz l k y vy) as (K1 & K2 & K3).
      pose proof (HQ h' (kapp kr (Frame DR cz y vy l k)) xr cy) as HQ'.
      rewrite plug_kapp, cpar_kapp in HQ'. simpl in HQ'. simpl in Ht'. eapply HQ'; [|exact Ht'|done|auto|done|auto| |].
      + rewrite !elems_plug. simpl. rewrite !elems_plug, Hkr. simpl. repeat (rewrite <-(assoc_L (++)); simpl). done.
      + intros ->. destruct (H5 eq_refl). 
        assert (rb (plug (kapp kr (Frame DR cz y vy l k)) xr)) as Hrb2; [|by rewrite plug_kapp in Hrb2].
        eapply rb_plug; [done|auto| |done|auto]. congruence.
      + pose proof (plug_height (kapp kr (Frame DR cz z vz l k)) (Node cy y vy Leaf xr)) as Hp.
        rewrite plug_kapp in Hp. simpl in Hp. fold t in Hp. rewrite !depth_kapp in *. simpl in *. lia.
  Qed.

  Lemma rebalance_erase_spec n hf k cz z vz l r w (Q : addr -> W -> Prop) :
    let t := plug k (Node cz z vz l r) in
    tinE n (w_heap w) hf t -> rb t ->
    (forall h' t' c' p a b,
       elems t' = (cpre k ++ elems l) ++ (elems r ++ cpost k) ->
       tinE n h' (<[z := ncell al c' p a b vz]> hf) t' -> rb t' -> Q z (set_heap h' w)) ->
    runs (rebalance_for_erase cf z hdr) w Q.
  Proof.
    intros t Ht Hrb HQ. unfold rebalance_for_erase. rbind.
    eapply unlink_spec; [done|done|]. intros h1 k' x c' p a b m HE Ht1 Hnx Hnk Hbx HB HR Hdep.
    assert (h1 !! z = Some (ncell al c' p a b vz)) as Hz.
    { rewrite (tin_out al hdr _ _ _ _ _ _ Ht1), lookup_insert; [done|].
      intros Hin. apply (tin_none al hdr _ _ _ _ _ _ Ht1) in Hin. by rewrite lookup_insert in Hin. }
    rbind. eapply (runs_get_color al DL); [exact Hz|].
    destruct c'.
    - rewrite decide_False by (intros Hne; by apply Hne). rbind. apply runs_ret. apply runs_ret.
      eapply HQ; [done|exact Ht1|auto].
    - rewrite decide_True by done. rbind. rbind. apply runs_tree_fuel. rbind.
      simpl fst. simpl snd.
      eapply (erase_loop_spec al hdr); [| exact Ht1| |exact Hnk|exact Hbx|auto|].
      { pose proof (tin_fits al hdr _ _ _ _ _ _ Ht Hrb) as Hf.
        rewrite (tin_size al hdr _ _ _ _ _ _ Ht) in Hf. simpl w_heap. rewrite (tin_size al hdr _ _ _ _ _ _ Ht1).
        assert (hf !! z = None) as Hnz.
        { apply (tin_none al hdr _ _ _ _ _ _ Ht). apply elem_of_cons; right. apply elem_of_list_fmap.
          exists (z, vz). split; [done|]. unfold t. rewrite elems_plug. simpl. rewrite !elem_of_app, elem_of_cons. auto. }
        rewrite map_size_insert_None by done. rewrite HE.
        assert (length (elems t) = S (length ((cpre k ++ elems l) ++ elems r ++ cpost k))) as El.
        { unfold t. rewrite elems_plug, !app_length. simpl. rewrite !app_length. simpl. lia. }
        rewrite El, Nat.add_succ_l, <-Nat.add_succ_r in Hf. by etrans. }
      { by apply blacken_nored. }
      intros h2 k2 x2 Ht2 HE2 Hrb2. destruct x2 as [|c2 a2 v2 l2 r2]; simpl root; cbv iota.
      + apply runs_ret. apply runs_ret. unfold set_heap; simpl. rewrite HE in HE2.
        eapply HQ; [exact HE2| |exact Hrb2]. by rewrite HE2, <-HE.
      + eapply (recolor_spec al hdr); [exact Ht2|]. intros h3 Ht3. apply runs_ret. unfold set_heap; simpl.
        assert (elems (plug k2 (Node Black a2 v2 l2 r2)) = elems (plug k' x)) as HE3.
        { rewrite <-HE2, !elems_plug. done. }
        eapply HQ; [by rewrite HE3| |exact Hrb2]. by rewrite HE3.
  Qed.

  Lemma insert_rebalance_spec n hf k il x cx v w (Q : unit -> W -> Prop) :
    tinE n (w_heap w) hf (plug k Leaf) -> rb (plug k Leaf) ->
    hf !! x = Some cx -> tn_body cx = TNode al (Some v) ->
    match k with Top => il = true | Frame d _ _ _ _ _ => il = match d with DL => true | DR => false end end ->
    (forall h' t', elems t' = cpre k ++ (x, v) :: cpost k ->
       tinE n h' (delete x hf) t' -> rb t' -> Q tt (set_heap h' w)) ->
    runs (insert_and_rebalance il x (cpar hdr k) hdr) w Q.
  Proof.
    intros Ht Hrb0 Hx Hv Hil HQ. pose proof (tin_fits al hdr _ _ _ _ _ _ Ht Hrb0) as Hfit.
    destruct Hrb0 as (Hc & Hn & m & Hb). unfold insert_and_rebalance. rbind.
    eapply (ins_link_spec al hdr); [exact Ht|done|done|done|].
    intros h1 lm' rm' Ht1 Hlm Hrm.
    assert (lm' = first_of hdr (cpre k ++ (x, v) :: cpost k) /\ rm' = last_of hdr (cpre k ++ (x, v) :: cpost k)) as [Hlm' Hrm'].
    { pose proof (tin_nodup al hdr _ _ _ _ _ _ Ht) as Hnd. apply NoDup_cons in Hnd as [_ Hnd].
      rewrite elems_plug in *. simpl in Hlm, Hrm, Hnd. rewrite fmap_app in Hnd.
      destruct k as [|[] c p v' s k]; simpl in *; [done|..].
      - split.
        + destruct (cpre k) as [|[a0 v0] K] eqn:EK; simpl in *; unfold first_of in *; simpl in *.
          * by rewrite decide_True in Hlm.
          * rewrite decide_False in Hlm; [done|]. intros ->. apply NoDup_cons in Hnd as [Hnd _]. apply Hnd. set_solver.
        + rewrite Hrm. set (R := (p, v') :: elems s ++ cpost k).
          change ((x, v) :: R) with ([(x, v)] ++ R). by rewrite !last_app' by done.
      - split.
        + rewrite Hlm. unfold first_of. rewrite !fmap_app. csimpl. destruct ((cpre k).*1) as [|q K]; [|done]. simpl.
          by destruct ((elems s).*1).
        + destruct (cpost k) as [|[a0 v0] K _] eqn:EK using rev_ind.
          * rewrite decide_True in Hrm; [by rewrite last_snoc'|]. rewrite app_nil_r, (assoc_L (++)). by rewrite last_snoc'.
          * assert (forall X : list (addr * V), last_of hdr (X ++ K ++ [(a0, v0)]) = a0) as Hl.
            { intros X. rewrite (assoc_L (++)). apply last_snoc'. }
            rewrite Hl in Hrm. rewrite decide_False in Hrm.
            -- rewrite Hrm. change ((x, v) :: K ++ [(a0, v0)]) with ([(x, v)] ++ K ++ [(a0, v0)]). by rewrite (assoc_L (++)), Hl.
            -- intros ->. eapply (nodup_perm _ (p :: p :: (cpre k).*1 ++ addrs s ++ K.*1)) in Hnd.
               ++ apply NoDup_cons in Hnd as [Hnd _]. apply Hnd. by left.
               ++ rewrite !fmap_app. csimpl. rewrite ?fmap_app. csimpl. perm_solve. }
    clear Hlm Hrm.
    apply plug_nored_inv in Hn as (_ & Hk & _); [|done].
    apply plug_inv in Hb as (m' & Hb & Hk'). simpl in Hb. subst m'.
    rbind. apply runs_tree_fuel. rbind.
    eapply (ins_loop_spec al hdr _ _ _ _ _ k x v Leaf Leaf 0); [|exact Ht1|done|done|done|done|].
    { simpl w_heap. rewrite (tin_size al hdr _ _ _ _ _ _ Ht1). rewrite map_size_delete_Some by eauto.
      rewrite (tin_size al hdr _ _ _ _ _ _ Ht) in Hfit.
      assert (size hf <> 0) as Hs. { intros Hs. apply map_size_empty_inv in Hs. rewrite Hs in Hx. done. }
      rewrite elems_plug, !app_length in Hfit |- *. simpl in Hfit |- *.
      pose proof (plug_height k Leaf) as Hp. simpl in Hp.
      replace (length (cpre k) + S (length (cpost k)) + pred (size hf)) with (length (cpre k) + length (cpost k) + size hf) by lia. lia. }
    intros h2 t2 Ht2 HE2 Hn2 (m2 & Hb2).
    rewrite elems_plug in HE2. simpl in HE2.
    rbind. eapply runs_root; [exact (tin_hdr al hdr _ _ _ _ _ _ Ht2)|].
    destruct t2 as [|c2 a2 v2 l2 r2].
    { exfalso. symmetry in HE2. simpl in HE2. by apply app_eq_nil in HE2 as [_ ?]. }
    rbind. apply runs_deref.
    eapply (recolor_spec al hdr _ _ _ Top); [exact Ht2|]. intros h3 Ht3. unfold set_heap; simpl.
    simpl in Ht3. eapply (HQ h3 (Node Black a2 v2 l2 r2)).
    - exact HE2.
    - simpl in HE2 |- *. rewrite HE2. by rewrite <-Hlm', <-Hrm'.
    - destruct Hn2 as (_ & Hn2 & Hn3). split_and!; [done|done|].
      destruct c2; simpl in Hb2.
      + exists (S m2). simpl. eauto.
      + by exists m2.
  Qed.
End erase.
