(** * Linking a node into the tree and taking one out *)
From Verif Require Export RbFix.

(** ** The height of a red-black tree *)
Section height.
  Context {V : Type}.
  Implicit Types t : tree V.

  Lemma bal_size n t : bal n t -> 2 ^ n <= S (length (elems t)).
  Proof.
    revert n. induction t as [|c a v l IHl r IHr]; intros n Hb.
    - simpl in Hb. subst. simpl. lia.
    - simpl elems. rewrite app_length. destruct c.
      + simpl in Hb. destruct Hb as [Hl Hr]. specialize (IHl _ Hl). simpl length. lia.
      + simpl in Hb. destruct Hb as (m & -> & Hl & Hr). specialize (IHl _ Hl). specialize (IHr _ Hr).
        rewrite Nat.pow_succ_r'. simpl length. lia.
  Qed.
  Lemma bal_height n t :
    bal n t -> nored t -> height t <= 2 * n + (match tcol t with Red => 1 | Black => 0 end).
  Proof.
    revert n. induction t as [|c a v l IHl r IHr]; intros n Hb Hn.
    - simpl. lia.
    - destruct Hn as (Hc & Hnl & Hnr). destruct c.
      + simpl in Hb. destruct Hb as [Hl Hr]. specialize (IHl _ Hl Hnl). specialize (IHr _ Hr Hnr).
        destruct (Hc eq_refl) as [E1 E2]. rewrite E1 in IHl. rewrite E2 in IHr. simpl in *. lia.
      + simpl in Hb. destruct Hb as (m & -> & Hl & Hr). specialize (IHl _ Hl Hnl). specialize (IHr _ Hr Hnr).
        simpl in *. destruct (tcol l), (tcol r); lia.
  Qed.
  Lemma rb_height t : rb t -> height t <= 2 * Nat.log2 (S (length (elems t))).
  Proof.
    intros (Hc & Hn & n & Hb). pose proof (bal_height _ _ Hb Hn) as Hh. rewrite Hc in Hh.
    pose proof (bal_size _ _ Hb) as Hs.
    assert (n <= Nat.log2 (S (length (elems t)))); [|lia].
    rewrite <-(Nat.log2_pow2 n) by lia. apply Nat.log2_le_mono. done.
  Qed.
  Lemma height_le t : height t <= length (elems t).
  Proof. induction t as [|c a v l IHl r IHr]; simpl; [lia|]. rewrite app_length. simpl. lia. Qed.
  Lemma plug_height (k : @ctx V) t : depth k + height t <= height (plug k t).
  Proof. revert t. induction k as [|[] c a v s k IH]; intros t; simpl; [lia| |]; (etrans; [|apply IH]); simpl; lia. Qed.
  (** A loop up or down a red-black tree stays within the limit. *)
  Lemma tin_fits {L : limit} al hdr lm rm n h hf t :
    tin al hdr lm rm n h hf t -> rb t -> height t < rounds (size h).
  Proof.
    intros Ht Hrb. pose proof (rb_height t Hrb) as Hh. pose proof (fuel_bound al hdr _ _ _ _ _ _ Ht) as Hb.
    pose proof (rounds_ok (size h)).
    assert (Nat.log2 (S (length (elems t))) <= Nat.log2 (size h)) by (apply Nat.log2_le_mono; lia). lia.
  Qed.
  (** The default limit is enough for every tree. *)
  Lemma tin_linear al hdr lm rm n h hf t : tin al hdr lm rm n h hf t -> height t < @rounds linear (size h).
  Proof. intros Ht. pose proof (height_le t). pose proof (fuel_bound al hdr _ _ _ _ _ _ Ht). simpl. lia. Qed.
  Lemma tin_size al hdr lm rm n h hf t :
    tin al hdr lm rm n h hf t -> size h = S (length (elems t) + size hf).
  Proof.
    intros [Hh Ht Hn Hout Hnone].
    assert (dom h = list_to_set (hdr :: (elems t).*1) ∪ dom hf) as Hd.
    { apply set_eq. intros a. rewrite elem_of_union, elem_of_list_to_set, !elem_of_dom.
      destruct (decide (a ∈ hdr :: (elems t).*1)) as [Hin|Hin].
      - split; [by left|]. intros _. apply elem_of_cons in Hin as [->|Hin]; [by eexists|]. by eapply tat_some.
      - rewrite Hout by done. split; [by right|]. by intros [?|?]. }
    rewrite <-(size_dom h), Hd, size_union.
    - rewrite size_list_to_set, size_dom by done. simpl. by rewrite fmap_length.
    - intros a Ha Hb. apply elem_of_list_to_set in Ha. apply elem_of_dom in Hb as [? Hb]. rewrite Hnone in Hb; done.
  Qed.
End height.

Section link.
  Context {V : Type} {L : limit} (cf : cfg V) (al : alloc_id) (hdr : addr).
  Notation H := (gmap addr (tcell V)).
  Notation W := (world (tcell V)).
  Implicit Types h hf : H.
  Implicit Types w : W.
  Implicit Types t s : tree V.
  Implicit Types lm rm : addr.
  Implicit Types n : nat.
  Implicit Types k : @ctx V.
  Notation tin := (tin al hdr).
  Notation tat := (tree_at al).
  Notation addrs t := (elems t).*1.
  Notation caddrs k := ((cpre k).*1 ++ (cpost k).*1).

  Lemma addrs_plug k t : addrs (plug k t) ≡ₚ caddrs k ++ addrs t.
  Proof. rewrite elems_plug, !fmap_app. perm_solve. Qed.
  Lemma cpar_mem k : cpar hdr k ∈ hdr :: caddrs k.
  Proof. destruct k as [|d c a v s k]; [simpl; set_solver|]. apply elem_of_cons. right. apply (cpar_in hdr). Qed.

  (** ** The header's fields *)

  Lemma tin_sethdr lm rm n lm' rm' n' h hf t :
    tin lm rm n h hf t -> tin lm' rm' n' (<[hdr := hcell (root t) lm' rm' n']> h) hf t.
  Proof.
    intros [Hh Ht Hn Ho Hd]. split; [by rewrite lookup_insert| |done| |done].
    - eapply tat_ext; [|done]. intros a Ha. rewrite lookup_insert_ne; [done|]. intros <-. apply NoDup_cons in Hn as [? _]. done.
    - intros a Ha. rewrite lookup_insert_ne by set_solver. by apply Ho.
  Qed.
  Lemma runs_get_lm w o lm rm n (Q : _ -> W -> Prop) :
    w_heap w !! hdr = Some (hcell o lm rm n) -> Q (Some lm) w -> runs (get_left hdr) w Q.
  Proof. intros Ha HQ. eapply runs_get_field; [exact Ha|done|done]. Qed.
  Lemma runs_get_rm w o lm rm n (Q : _ -> W -> Prop) :
    w_heap w !! hdr = Some (hcell o lm rm n) -> Q (Some rm) w -> runs (get_right hdr) w Q.
  Proof. intros Ha HQ. eapply runs_get_field; [exact Ha|done|done]. Qed.
  Lemma runs_set_lm w o lm rm n lm' (Q : _ -> W -> Prop) :
    w_heap w !! hdr = Some (hcell o lm rm n) ->
    Q tt (set_heap (<[hdr := hcell o lm' rm n]> (w_heap w)) w) -> runs (set_left hdr (Some lm')) w Q.
  Proof. intros Ha HQ. unfold set_left. rbind. eapply runs_load; [done|]. by eapply runs_store. Qed.
  Lemma runs_set_rm w o lm rm n rm' (Q : _ -> W -> Prop) :
    w_heap w !! hdr = Some (hcell o lm rm n) ->
    Q tt (set_heap (<[hdr := hcell o lm rm' n]> (w_heap w)) w) -> runs (set_right hdr (Some rm')) w Q.
  Proof. intros Ha HQ. unfold set_right. rbind. eapply runs_load; [done|]. by eapply runs_store. Qed.

  (** ** Linking *)

  Lemma tin_grow lm rm n h h' hf k x v :
    tin lm rm n h hf (plug k Leaf) -> is_Some (hf !! x) ->
    ctx_at al hdr lm rm n h' k (Some x) -> h' !! x = Some (ncell al Red (cpar hdr k) None None v) ->
    (forall a, a ∉ hdr :: x :: caddrs k -> h' !! a = h !! a) ->
    tin lm rm n h' (delete x hf) (plug k (Node Red x v Leaf Leaf)).
  Proof.
    intros [Hh Ht Hn Ho Hd] [cx Hx] [Hc1 Hc2] Hx' Hout.
    assert (addrs (plug k (Node Red x v Leaf Leaf)) ≡ₚ x :: addrs (plug k Leaf)) as Hp.
    { rewrite !addrs_plug. simpl. perm_solve. }
    assert (addrs (plug k Leaf) ≡ₚ caddrs k) as Hp0.
    { rewrite addrs_plug. simpl. by rewrite app_nil_r. }
    assert (x ∉ hdr :: addrs (plug k Leaf)) as Hxn.
    { intros Hin. apply Hd in Hin. congruence. }
    split.
    - by rewrite root_plug.
    - apply tat_plug. split; [done|]. simpl. done.
    - rewrite Hp. rewrite !NoDup_cons in *. rewrite not_elem_of_cons in *. naive_solver.
    - intros a. rewrite Hp. rewrite !not_elem_of_cons. intros (Ha1 & Ha2 & Ha3).
      rewrite lookup_delete_ne by done. rewrite Hout; [apply Ho; set_solver|].
      rewrite !not_elem_of_cons, <-Hp0. done.
    - intros a. rewrite Hp. intros Ha. destruct (decide (a = x)) as [->|]; [by rewrite lookup_delete|].
      rewrite lookup_delete_ne by done. apply Hd. set_solver.
  Qed.

  Lemma ins_link_spec lm rm n hf k il x cx v w (Q : unit -> W -> Prop) :
    tin lm rm n (w_heap w) hf (plug k Leaf) ->
    hf !! x = Some cx -> tn_body cx = TNode al (Some v) ->
    match k with Top => il = true | Frame d _ _ _ _ _ => il = match d with DL => true | DR => false end end ->
    (forall h' lm' rm', tin lm' rm' n h' (delete x hf) (plug k (Node Red x v Leaf Leaf)) ->
       lm' = (match k with Top => x | Frame DL _ p _ _ _ => if decide (lm = p) then x else lm | _ => lm end) ->
       rm' = (match k with Top => x | Frame DR _ p _ _ _ => if decide (rm = p) then x else rm | _ => rm end) ->
       Q tt (set_heap h' w)) ->
    runs (ins_link il x (cpar hdr k) hdr) w Q.
  Proof.
    intros Ht Hx Hbody Hil HQ. unfold ins_link.
    assert (x ∉ hdr :: addrs (plug k Leaf)) as Hxn.
    { intros Hin. apply (tin_none al hdr _ _ _ _ _ _ Ht) in Hin. congruence. }
    assert (w_heap w !! x = Some cx) as Hwx by (by rewrite (tin_out al hdr _ _ _ _ _ _ Ht)).
    assert (x <> hdr) as Hxh by set_solver.
    assert (x ∉ caddrs k) as Hxk.
    { rewrite not_elem_of_cons, addrs_plug in Hxn. simpl in Hxn. rewrite app_nil_r in Hxn. tauto. }
    rbind. unfold set_parent at 1. rbind. eapply runs_load; [done|]. eapply runs_store; [done|].
    rbind. unfold set_left at 1. rbind. eapply runs_load; [simpl; by rewrite lookup_insert|]. eapply runs_store; [simpl; by rewrite lookup_insert|].
    rbind. unfold set_right at 1. rbind. eapply runs_load; [simpl; by rewrite lookup_insert|]. eapply runs_store; [simpl; by rewrite lookup_insert|].
    rbind. unfold set_color at 1. rbind. eapply runs_load; [simpl; by rewrite lookup_insert|]. eapply runs_store; [simpl; by rewrite lookup_insert|].
    simpl. rewrite !insert_insert. rewrite Hbody. fold (ncell al Red (cpar hdr k) None None v).
    set (h1 := <[x := _]> (w_heap w)). unfold set_heap; simpl.
    assert (ctx_at al hdr lm rm n h1 k None) as Hc1.
    { eapply ctx_at_ext; [| |exact (tin_ctx al hdr _ _ _ _ _ _ _ Ht)].
      - unfold h1. by rewrite lookup_insert_ne.
      - intros a Ha. unfold h1. rewrite lookup_insert_ne; [done|]. by intros ->. }
    pose proof (tin_nodup_ctx al hdr _ _ _ _ _ _ _ Ht) as Hnk.
    set (h2 := <[cpar hdr k := upd_hole al hdr lm rm n k (Some x)]> h1).
    assert (ctx_at al hdr lm rm n h2 k (Some x)) as Hc2 by (by eapply ctx_at_upd).
    assert (cpar hdr k <> x) as Hpx.
    { intros Heq. pose proof (cpar_mem k) as Hm. rewrite Heq in Hm. set_solver. }
    assert (tin lm rm n h2 (delete x hf) (plug k (Node Red x v Leaf Leaf))) as Ht2.
    { eapply tin_grow; [exact Ht|by eauto|done| |].
      - unfold h2, h1. rewrite lookup_insert_ne by done. by rewrite lookup_insert.
      - intros a Ha. unfold h2, h1. rewrite !lookup_insert_ne; [done| |].
        + set_solver.
        + intros Heq. pose proof (cpar_mem k) as Hm. rewrite Heq in Hm. set_solver. }
    destruct k as [|d c p vp s k].
    - subst il. simpl. destruct Hc1 as [Hh1 _]. simpl in Hh1.
      rbind. eapply runs_set_lm; [exact Hh1|]. rewrite decide_True by done. simpl.
      rbind. unfold set_parent. rbind. eapply runs_load; [simpl; by rewrite lookup_insert|].
      eapply runs_store; [simpl; by rewrite lookup_insert|]. simpl.
      eapply runs_set_rm; [simpl; by rewrite lookup_insert|]. simpl. rewrite !insert_insert. unfold set_heap; simpl.
      eapply HQ; [|done|done].
      pose proof (tin_sethdr _ _ _ x x n _ _ _ Ht2) as Ht3. unfold h2 in Ht3. simpl in Ht3. rewrite insert_insert in Ht3. exact Ht3.
    - destruct Hc1 as [Hh1 Hk1]. destruct Hk1 as (Hp & Hs & Hk1).
      assert (p <> hdr) as Hphd.
      { intros ->. apply NoDup_cons in Hnk as [Hnk _]. apply Hnk. apply (cpar_in hdr). }
      pose proof (tin_hdr al hdr _ _ _ _ _ _ Ht2) as Hh2.
      destruct d; subst il; simpl cpar; cbv iota.
      + rbind. eapply (runs_set_child al DL); [exact Hp|]. cbv beta. rewrite decide_False by done.
        rbind. eapply runs_get_lm; [exact Hh2|]. 
        destruct (decide (lm = p)) as [->|Hlm].
        * rewrite decide_True by done. eapply runs_set_lm; [exact Hh2|]. simpl. unfold set_heap; simpl.
          eapply HQ; [apply (tin_sethdr _ _ _ x rm n _ _ _ Ht2)| |done]. by rewrite ?decide_True by done.
        * rewrite decide_False by congruence. apply runs_ret. eapply HQ; [exact Ht2| |done]. by rewrite ?decide_False by done.
      + rbind. eapply (runs_set_child al DR); [exact Hp|]. simpl.
        rbind. eapply runs_get_rm; [exact Hh2|]. 
        destruct (decide (rm = p)) as [->|Hlm].
        * rewrite decide_True by done. eapply runs_set_rm; [exact Hh2|]. simpl. unfold set_heap; simpl.
          eapply HQ; [apply (tin_sethdr _ _ _ lm x n _ _ _ Ht2)|done|]. by rewrite ?decide_True by done.
        * rewrite decide_False by congruence. apply runs_ret. eapply HQ; [exact Ht2|done|]. by rewrite ?decide_False by done.
  Qed.

  (** ** First and last elements *)

  Lemma first_app X Y : X <> [] -> first_of (V:=V) hdr (X ++ Y) = first_of hdr X.
  Proof. by destruct X. Qed.
  Lemma last_app' X Y : Y <> [] -> last_of (V:=V) hdr (X ++ Y) = last_of hdr Y.
  Proof.
    intros HY. unfold last_of. rewrite fmap_app, last_app. destruct (last Y.*1) eqn:E; [done|].
    apply last_None in E. by destruct Y.
  Qed.
  Lemma last_snoc' X a v : last_of (V:=V) hdr (X ++ [(a, v)]) = a.
  Proof. by rewrite last_app' by done. Qed.
  Lemma cpre_nil_first k : cpre k = [] -> first_of hdr (cpost k) = cpar hdr k.
  Proof.
    destruct k as [|[] c a v s k]; simpl; [done|done|]. intros Hn.
    apply (f_equal length) in Hn. rewrite !app_length in Hn. simpl in Hn. lia.
  Qed.
  Lemma cpost_nil_last k : cpost k = [] -> last_of hdr (cpre k) = cpar hdr k.
  Proof.
    destruct k as [|[] c a v s k]; simpl; [done|done|]. intros Hn.
    rewrite (assoc_L (++)). apply last_snoc'.
  Qed.
  Lemma first_mem X a : first_of (V:=V) hdr X = a -> a <> hdr -> exists v Y, X = (a, v) :: Y.
  Proof. destruct X as [|[b v] Y]; [done|]. intros <- _. eauto. Qed.
  Lemma last_mem X a : last_of (V:=V) hdr X = a -> a <> hdr -> exists v Y, X = Y ++ [(a, v)].
  Proof.
    destruct X as [|[b v] Y _] using rev_ind; [done|]. rewrite last_snoc'. intros <- _. eauto.
  Qed.

  (** ** Minimum and maximum *)

  Lemma minimum_spec lm rm n hf fuel k c a v l r w (Q : addr -> W -> Prop) :
    tin lm rm n (w_heap w) hf (plug k (Node c a v l r)) -> height l < fuel ->
    Q (first_of hdr (elems (Node c a v l r))) w -> runs (minimum_loop fuel a) w Q.
  Proof.
    revert k c a v l r. induction fuel as [|fuel IH]; intros k c a v l r Ht Hf HQ; [lia|].
    simpl. rbind. eapply (runs_get_child al DL). { eapply (tin_nodeD al hdr _ _ _ _ _ k DL). exact Ht. }
    destruct l as [|c' a' v' l' r']; simpl root; cbv iota.
    - apply runs_ret. exact HQ.
    - eapply (IH (Frame DL c a v r k)); [exact Ht| |].
      + simpl in Hf. lia.
      + simpl in HQ |- *. rewrite first_app in HQ; [done|]. destruct (elems l'); done.
  Qed.
  Lemma maximum_spec lm rm n hf fuel k c a v l r w (Q : addr -> W -> Prop) :
    tin lm rm n (w_heap w) hf (plug k (Node c a v l r)) -> height r < fuel ->
    Q (last_of hdr (elems (Node c a v l r))) w -> runs (maximum_loop fuel a) w Q.
  Proof.
    revert k c a v l r. induction fuel as [|fuel IH]; intros k c a v l r Ht Hf HQ; [lia|].
    simpl. rbind. eapply (runs_get_child al DR). { eapply (tin_nodeD al hdr _ _ _ _ _ k DR). exact Ht. }
    destruct r as [|c' a' v' l' r']; simpl root; cbv iota.
    - apply runs_ret. simpl in HQ. by rewrite last_snoc' in HQ.
    - eapply (IH (Frame DR c a v l k)); [exact Ht| |].
      + simpl in Hf. lia.
      + simpl in HQ |- *. rewrite last_app' in HQ by done.
        change ((a, v) :: elems l' ++ (a', v') :: elems r') with ([(a, v)] ++ (elems l' ++ (a', v') :: elems r')) in HQ.
        rewrite last_app' in HQ; [done|]. by destruct (elems l').
  Qed.
  Lemma runs_tree_fuel w (Q : nat -> W -> Prop) : Q (rounds (size (w_heap w))) w -> runs tree_fuel w Q.
  Proof. intros HQ. unfold tree_fuel. rbind. apply runs_get_heap. by apply runs_ret. Qed.
  Lemma runs_cell_fuel w (Q : nat -> W -> Prop) : Q (S (S (size (w_heap w)))) w -> runs cell_fuel w Q.
  Proof. intros HQ. unfold cell_fuel. rbind. apply runs_get_heap. by apply runs_ret. Qed.
  Lemma sub_fuel lm rm n h hf k c a v l r :
    tin lm rm n h hf (plug k (Node c a v l r)) -> length (elems l) + length (elems r) + depth k < size h.
  Proof.
    intros Ht. pose proof (fuel_bound al hdr _ _ _ _ _ _ Ht) as Hb.
    rewrite elems_plug, !app_length in Hb. simpl in Hb. rewrite app_length in Hb. simpl in Hb.
    assert (depth k <= length (cpre k) + length (cpost k)).
    { pose proof (depth_le k (Leaf)) as Hd. rewrite elems_plug, !app_length in Hd. simpl in Hd. lia. }
    lia.
  Qed.
  Lemma s_minimum_spec lm rm n hf k t w (Q : addr -> W -> Prop) :
    tin lm rm n (w_heap w) hf (plug k t) -> t <> Leaf -> height t < rounds (size (w_heap w)) ->
    Q (first_of hdr (elems t)) w -> runs (s_minimum cf (root t)) w Q.
  Proof.
    intros Ht Hne Hf HQ. destruct t as [|c a v l r]; [done|]. unfold s_minimum.
    rbind. apply runs_assert; [done|]. rbind. simpl. apply runs_deref. rbind. apply runs_tree_fuel.
    eapply minimum_spec; [exact Ht| |done]. simpl in Hf. lia.
  Qed.
  Lemma s_maximum_spec lm rm n hf k t w (Q : addr -> W -> Prop) :
    tin lm rm n (w_heap w) hf (plug k t) -> t <> Leaf -> height t < rounds (size (w_heap w)) ->
    Q (last_of hdr (elems t)) w -> runs (s_maximum cf (root t)) w Q.
  Proof.
    intros Ht Hne Hf HQ. destruct t as [|c a v l r]; [done|]. unfold s_maximum.
    rbind. apply runs_assert; [done|]. rbind. simpl. apply runs_deref. rbind. apply runs_tree_fuel.
    eapply maximum_spec; [exact Ht| |done]. simpl in Hf. lia.
  Qed.
  Lemma min_split t : t <> Leaf -> exists k c a v r, t = plug k (Node c a v Leaf r) /\ cpre k = [].
  Proof.
    induction t as [|c a v l IHl r _]; [done|]. intros _. destruct l as [|c' a' v' l' r'].
    - by exists Top, c, a, v, r.
    - destruct IHl as (k & c0 & a0 & v0 & r0 & -> & Hk); [done|].
      assert (exists k', plug k' (Node c0 a0 v0 Leaf r0) = Node c a v (plug k (Node c0 a0 v0 Leaf r0)) r /\ cpre k' = []) as (k' & <- & Hk').
      { clear -Hk. generalize (Node c0 a0 v0 Leaf r0). intros t. revert t. induction k as [|d c1 a1 v1 s1 k IH]; intros t.
        - by exists (Frame DL c a v r Top).
        - simpl in Hk. destruct d.
          + destruct (IH Hk (nodeD DL c1 a1 v1 t s1)) as (k' & He & Hk'). exists (Frame DL c1 a1 v1 s1 k'). done.
          + apply (f_equal length) in Hk. rewrite !app_length in Hk. simpl in Hk. lia. }
      by exists k', c0, a0, v0, r0.
  Qed.
End link.
