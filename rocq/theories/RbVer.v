(** * The tree's check of itself: proofs *)
From Verif Require Import RbHist.
From Verif Require Export RbVerSpec RbMulti.

Section ver.
  Context {V : Type} (cf : cfg V) (comp : V -> V -> bool).
  Notation H := (gmap addr (tcell V)).
  Notation W := (world (tcell V)).
  Implicit Types h hf : H.
  Implicit Types w : W.
  Implicit Types t s l r : tree V.
  Implicit Types n len b : nat.
  Implicit Types k : @ctx V.

  Fixpoint cblack k : nat := match k with Top => 0 | Frame _ c _ _ _ k => cblack k + blacks c end.

  Definition okb len b (c : color) (v : V) l r : bool :=
    negb (match c with Red => match tcol l with Red => true | Black => match tcol r with Red => true | Black => false end end | Black => false end) &&
    negb (match rootval l with Some u => comp v u | None => false end) &&
    negb (match rootval r with Some u => comp u v | None => false end) &&
    (match l, r with Leaf, Leaf => bool_decide (b + blacks c = len) | _, _ => true end).

  (** Is node number [i] all right? *)
  Fixpoint okAt len b t (i : nat) : bool :=
    match t with
    | Leaf => true
    | Node c _ v l r =>
        if decide (i < length (elems l)) then okAt len (b + blacks c) l i
        else if decide (i = length (elems l)) then okb len b c v l r
        else okAt len (b + blacks c) r (i - S (length (elems l)))
    end.

  Lemma okb_spec len b c v l r : okb len b c v l r = true <->
    (c = Red -> tcol l = Black /\ tcol r = Black) /\
    (forall u, rootval l = Some u -> comp v u = false) /\
    (forall u, rootval r = Some u -> comp u v = false) /\
    (l = Leaf -> r = Leaf -> b + blacks c = len).
  Proof.
    unfold okb. rewrite !andb_true_iff, !negb_true_iff. split.
    - intros (((H1 & H2) & H3) & H4). split_and!.
      + intros ->. by destruct (tcol l), (tcol r).
      + intros u Hu. by rewrite Hu in H2.
      + intros u Hu. by rewrite Hu in H3.
      + intros -> ->. by apply bool_decide_eq_true in H4.
    - intros (H1 & H2 & H3 & H4). split_and!.
      + destruct c; [|done]. by destruct H1 as [-> ->].
      + destruct (rootval l); [by apply H2|done].
      + destruct (rootval r); [by apply H3|done].
      + destruct l, r; [|done..]. apply bool_decide_eq_true. by apply H4.
  Qed.

  Lemma checked_at len b t : checked comp len b t <-> forall i, i < length (elems t) -> okAt len b t i = true.
  Proof.
    revert b. induction t as [|c a v l IHl r IHr]; intros b; simpl.
    - split; [intros _ i Hi; lia|done].
    - rewrite IHl, IHr. rewrite app_length. simpl. split.
      + intros (H1 & H2 & H3 & H4 & H5 & H6) i Hi. case_decide; [by apply H5|]. case_decide; [by apply okb_spec|].
        apply H6. lia.
      + intros Hall. pose proof (Hall (length (elems l)) ltac:(lia)) as Hm.
        rewrite decide_False in Hm by lia. rewrite decide_True in Hm by done.
        apply okb_spec in Hm as (H1 & H2 & H3 & H4). split_and!; [done..| |].
        * intros i Hi. specialize (Hall i ltac:(lia)). by rewrite decide_True in Hall by done.
        * intros i Hi. specialize (Hall (S (length (elems l)) + i) ltac:(lia)).
          rewrite decide_False in Hall by lia. rewrite decide_False in Hall by lia.
          by replace (S (length (elems l)) + i - S (length (elems l))) with i in Hall by lia.
  Qed.

  Lemma okAt_plug len b k s i : i < length (elems s) ->
    okAt len b (plug k s) (length (cpre k) + i) = okAt len (b + cblack k) s i.
  Proof.
    revert s i. induction k as [|d c a v s' k IH]; intros s i Hi; simpl.
    - by rewrite Nat.add_0_r.
    - destruct d; simpl.
      + rewrite IH by (simpl; rewrite app_length; lia). simpl. rewrite decide_True by done. by rewrite Nat.add_assoc.
      + rewrite !app_length. simpl.
        replace (length (cpre k) + (length (elems s') + 1) + i) with (length (cpre k) + (S (length (elems s')) + i)) by lia.
        rewrite IH by (simpl; rewrite app_length; simpl; lia). cbn [okAt]. rewrite decide_False by lia. rewrite decide_False by lia.
        replace (S (length (elems s')) + i - S (length (elems s'))) with i by lia. by rewrite Nat.add_assoc.
  Qed.

  Lemma lblack_min b k s : cpre k = [] -> lblack b (plug k s) = lblack (b + cblack k) s.
  Proof.
    revert s. induction k as [|d c a v s' k IH]; intros s Hk; simpl; [by rewrite Nat.add_0_r|].
    destruct d; simpl in Hk.
    - rewrite IH by done. simpl. by rewrite Nat.add_assoc.
    - apply (f_equal length) in Hk. rewrite !app_length in Hk. simpl in Hk. lia.
  Qed.

  Context (al : alloc_id) (hdr : addr).
  Notation tin := (tin al hdr).
  Notation tinE n h hf t := (tin (first_of hdr (elems t)) (last_of hdr (elems t)) n h hf t).

  Lemma black_count_loop_spec lm rm n hf fuel k c a v l r sum w (Q : nat -> W -> Prop) :
    tin lm rm n (w_heap w) hf (plug k (Node c a v l r)) -> depth k < fuel ->
    Q (sum + (cblack k + blacks c)) w ->
    runs (black_count_loop fuel a (root (plug k (Node c a v l r))) sum) w Q.
  Proof.
    revert k c a v l r sum. induction fuel as [|fuel IH]; intros k c a v l r sum Ht Hf HQ; [lia|].
    pose proof (tin_node al hdr _ _ _ _ _ _ _ _ _ _ _ Ht) as Ha. simpl.
    rbind. eapply (runs_get_color al DL); [exact Ha|].
    destruct k as [|d c' a' v' s' k].
    - simpl. rewrite decide_True by done. apply runs_ret. simpl in HQ. destruct c; simpl in HQ; [by rewrite Nat.add_0_r in HQ|].
      by rewrite Nat.add_1_r in HQ.
    - rewrite decide_False.
      + rbind. eapply (runs_parent_of al DL); [exact Ha|]. simpl cpar. simpl plug in *.
        assert (exists c0 v0 l0 r0, nodeD d c' a' v' (Node c a v l r) s' = Node c0 a' v0 l0 r0 /\ c0 = c') as (c0 & v0 & l0 & r0 & Heq & ->).
        { destruct d; by eexists _, _, _, _. }
        rewrite Heq in *. eapply IH; [exact Ht|simpl in Hf; lia|]. simpl in HQ.
        assert (sum + (cblack k + blacks c' + blacks c) = match c with Red => sum | Black => S sum end + (cblack k + blacks c')) as He.
        { destruct c; simpl; lia. }
        rewrite <-He. exact HQ.
      + rewrite root_plug. intros Heq. destruct (croot_in d c' a' v' s' k (root (Node c a v l r))) as (b & Hb & Hin).
        rewrite Hb in Heq. injection Heq as ->. destruct (tin_tags al hdr _ _ _ _ _ _ _ Ht) as (f & _ & H1 & H2).
        pose proof (H1 _ Hin) as Hx. rewrite H2 in Hx; [done|]. csimpl. rewrite fmap_app. csimpl. set_solver.
  Qed.
  Lemma black_count_spec lm rm n hf k c a v l r w (Q : nat -> W -> Prop) :
    tin lm rm n (w_heap w) hf (plug k (Node c a v l r)) -> Q (cblack k + blacks c) w ->
    runs (black_count (Some a) (root (plug k (Node c a v l r)))) w Q.
  Proof.
    intros Ht HQ. unfold black_count. rbind. apply runs_tree_fuel.
    eapply black_count_loop_spec; [exact Ht| |exact HQ]. pose proof (sub_fuel al hdr _ _ _ _ _ _ _ _ _ _ _ Ht). simpl. lia.
  Qed.

  (** A child of a node *)
  Lemma tin_left lm rm n h hf k c a v l r : tin lm rm n h hf (plug k (Node c a v l r)) -> tin lm rm n h hf (plug (Frame DL c a v r k) l).
  Proof. done. Qed.
  Lemma tin_right lm rm n h hf k c a v l r : tin lm rm n h hf (plug k (Node c a v l r)) -> tin lm rm n h hf (plug (Frame DR c a v l k) r).
  Proof. done. Qed.

  Lemma is_red_spec lm rm n hf k t w (Q : bool -> W -> Prop) :
    tin lm rm n (w_heap w) hf (plug k t) -> Q (bool_decide (tcol t = Red)) w -> runs (is_red (root t)) w Q.
  Proof.
    intros Ht HQ. destruct t as [|c a v l r]; simpl; [by apply runs_ret|].
    rbind. eapply (runs_get_color al DL); [exact (tin_node al hdr _ _ _ _ _ _ _ _ _ _ _ Ht)|]. by apply runs_ret.
  Qed.
  Lemma tread_top lm rm n hf k t a w (Q : V -> W -> Prop) :
    tin lm rm n (w_heap w) hf (plug k t) -> root t = Some a -> (forall u, rootval t = Some u -> Q u w) -> runs (tread a) w Q.
  Proof.
    intros Ht Hr HQ. destruct t as [|c b v l r]; [done|]. simpl in Hr. simplify_eq.
    eapply runs_tread_node; [exact Ht|]. by apply HQ.
  Qed.

  Lemma verify_node_spec lm rm n hf len k c a v l r w (Q : bool -> W -> Prop) :
    tin lm rm n (w_heap w) hf (plug k (Node c a v l r)) ->
    Q (negb (okb len (cblack k) c v l r)) w ->
    runs (verify_node comp (root (plug k (Node c a v l r))) len a) w Q.
  Proof.
    intros Ht HQ. pose proof (tin_node al hdr _ _ _ _ _ _ _ _ _ _ _ Ht) as Ha.
    pose proof (tin_left _ _ _ _ _ _ _ _ _ _ _ Ht) as Hl. pose proof (tin_right _ _ _ _ _ _ _ _ _ _ _ Ht) as Hr.
    unfold verify_node. rbind. eapply (runs_get_child al DL); [exact Ha|].
    rbind. eapply (runs_get_child al DR); [exact Ha|]. rbind. eapply (runs_get_color al DL); [exact Ha|].
    unfold okb in HQ.
    set (bad1 := match c with Red => match tcol l with Red => true | Black => match tcol r with Red => true | Black => false end end | Black => false end) in HQ.
    rbind. eapply (runs_mono _ _ (fun (q : bool) w' => q = bad1 /\ w' = w)).
    { destruct (decide (c = Red)) as [Hc|Hc].
      - unfold bad1. rewrite Hc. rbind. eapply is_red_spec; [exact Hl|]. destruct (tcol l); simpl.
        + by apply runs_ret.
        + eapply is_red_spec; [exact Hr|]. by destruct (tcol r).
      - apply runs_ret. unfold bad1. by destruct c. }
    intros ? ? [-> ->]. destruct bad1; simpl in HQ; [by apply runs_ret|].
    set (bad2 := match rootval l with Some u => comp v u | None => false end) in HQ.
    rbind. eapply (runs_mono _ _ (fun (q : bool) w' => q = bad2 /\ w' = w)).
    { destruct l as [|cl a1 v1 l1 r1]; simpl; [by apply runs_ret|]. rbind. eapply runs_tread_node; [exact Ht|].
      rbind. eapply runs_tread_node; [exact Hl|]. by apply runs_ret. }
    intros ? ? [-> ->]. destruct bad2; simpl in HQ; [by apply runs_ret|].
    set (bad3 := match rootval r with Some u => comp u v | None => false end) in HQ.
    rbind. eapply (runs_mono _ _ (fun (q : bool) w' => q = bad3 /\ w' = w)).
    { destruct r as [|cl a1 v1 l1 r1]; simpl; [by apply runs_ret|]. rbind. eapply runs_tread_node; [exact Hr|].
      rbind. eapply runs_tread_node; [exact Ht|]. by apply runs_ret. }
    intros ? ? [-> ->]. destruct bad3; simpl in HQ; [by apply runs_ret|].
    destruct l as [|cl al' vl ll rl]; simpl root at 1; [|by apply runs_ret].
    destruct r as [|cr ar vr lr rr]; simpl root at 1; [|by apply runs_ret].
    rbind. eapply black_count_spec; [exact Ht|]. by apply runs_ret.
  Qed.

  (** The nodes from number [i] on. *)
  Definition all_from len t (i : nat) : bool := forallb (okAt len 0 t) (seq i (length (elems t) - i)).

  Lemma verify_loop_spec lm rm n hf len t fuel i w (Q : bool -> W -> Prop) :
    tin lm rm n (w_heap w) hf t -> i <= length (elems t) -> length (elems t) - i < fuel ->
    Q (all_from len t i) w ->
    runs (verify_loop comp fuel (root t) len (tpos hdr (elems t) i) hdr) w Q.
  Proof.
    intros Ht. revert i. induction fuel as [|fuel IH]; intros i Hi Hf HQ; [lia|]. simpl.
    destruct (elems t !! i) as [[a v]|] eqn:Ei.
    - pose proof (lookup_lt_Some _ _ _ Ei) as Hlt. rewrite (tpos_some _ _ _ _ _ Ei).
      destruct (find_ctx _ _ _ _ Ei) as (k & c & l & r & Heq & Hpre & Hpost).
      rewrite decide_False.
      2: { intros ->. pose proof (tin_nodup al hdr _ _ _ _ _ _ Ht) as Hn. apply NoDup_cons in Hn as [Hn _]. apply Hn.
           apply elem_of_list_fmap. exists (hdr, v). split; [done|]. by eapply elem_of_list_lookup_2. }
      pose proof Ht as Ht'. rewrite Heq in Ht'.
      assert (okAt len 0 t i = okb len (cblack k) c v l r) as Hok.
      { rewrite Heq. assert (i = length (cpre k) + length (elems l)) as ->.
        { apply (f_equal length) in Hpre. rewrite app_length, take_length in Hpre. lia. }
        rewrite okAt_plug by (simpl; rewrite app_length; simpl; lia). simpl. rewrite decide_False by lia. by rewrite decide_True by done. }
      rbind. rewrite Heq at 1. eapply verify_node_spec; [exact Ht'|].
      unfold all_from in HQ. replace (length (elems t) - i) with (S (length (elems t) - S i)) in HQ by lia. simpl in HQ.
      rewrite Hok in HQ. destruct (okb len (cblack k) c v l r); simpl in *; [|by apply runs_ret].
      rbind. rewrite Heq in Ht. eapply (increment_spec_any al hdr); [exact Ht|by eapply tin_linear|]. rewrite Hpost, <-tpos_first.
      rewrite <-Heq in Ht. apply IH; [lia|lia|done].
    - apply lookup_ge_None in Ei. rewrite tpos_end by done. rewrite decide_True by done. apply runs_ret.
      unfold all_from in HQ. by replace (length (elems t) - i) with 0 in HQ by lia.
  Qed.
End ver.

Section ver2.
  Context {V : Type} (cf : cfg V) (comp : V -> V -> bool).
  Notation H := (gmap addr (tcell V)).
  Notation W := (world (tcell V)).
  Implicit Types hf : H.
  Implicit Types w : W.
  Implicit Types o : tset.
  Implicit Types t : tree V.
  Implicit Types n : nat.
  Notation tinE o n h hf t := (tin (t_alloc o) (t_hdr o) (first_of (t_hdr o) (elems t)) (last_of (t_hdr o) (elems t)) n h hf t).

  Lemma linked_is_tin o p q n t hf w : linked_is o p q n t hf w -> tin (t_alloc o) (t_hdr o) p q n (w_heap w) hf t.
  Proof.
    intros (hv & (Hh & Ht & Hn & Hdom) & Hw & Hd).
    assert (forall a, a ∈ t_hdr o :: (elems t).*1 -> w_heap w !! a = hv !! a) as Hin.
    { intros a Ha'. apply Hdom in Ha' as [c Hc]. rewrite Hw, Hc. by apply lookup_union_Some_l. }
    split.
    - rewrite Hin by set_solver. exact Hh.
    - eapply tat_ext; [|exact Ht]. intros a Hx. apply Hin. set_solver.
    - done.
    - intros a Hx. rewrite Hw. apply lookup_union_r. apply eq_None_not_Some. by rewrite Hdom.
    - intros a Hx. apply Hdom in Hx as [c Hc]. by eapply map_disjoint_Some_l.
  Qed.

  Lemma all_from_spec len t : all_from comp len t 0 = true <-> checked comp len 0 t.
  Proof.
    rewrite checked_at. unfold all_from. rewrite forallb_forall, Nat.sub_0_r. split.
    - intros Hf i Hi. apply Hf. apply in_seq. lia.
    - intros Hf i Hi%in_seq. apply Hf. lia.
  Qed.

  Definition accepts (hdr p q : addr) n t : Prop :=
    if decide (n = 0 \/ p = hdr) then n = 0 /\ p = hdr /\ q = hdr
    else p = first_of hdr (elems t) /\ q = last_of hdr (elems t) /\ checked comp (lblack 0 t) 0 t.

  Lemma rb_verify_spec o p q n t hf w (Q : bool -> W -> Prop) :
    tin (t_alloc o) (t_hdr o) p q n (w_heap w) hf t -> p ∈ t_hdr o :: (elems t).*1 ->
    (forall b : bool, (b = true <-> accepts (t_hdr o) p q n t) -> Q b w) -> runs (rb_verify cf comp o) w Q.
  Proof.
    intros Ht Hp HQ. pose proof (tin_hdr _ _ _ _ _ _ _ _ Ht) as Hh. unfold rb_verify, accepts in *.
    assert (forall (Q : nat -> W -> Prop), Q n w -> runs (get_count o) w Q) as Hc.
    { intros Q' HQ'. unfold get_count. rbind. eapply runs_load; [exact Hh|]. by apply runs_ret. }
    rbind. apply Hc. rbind. unfold t_begin. rbind. eapply (runs_get_lm (t_hdr o)); [exact Hh|]. apply runs_deref.
    unfold t_end in *. destruct (decide (n = 0 \/ p = t_hdr o)) as [Hor|Hor].
    - destruct (decide (n = 0 /\ p = t_hdr o)) as [[-> ->]|Hna].
      + rbind. eapply (runs_get_lm (t_hdr o)); [exact Hh|]. rbind. eapply (runs_get_rm (t_hdr o)); [exact Hh|]. apply runs_ret. apply HQ.
        rewrite bool_decide_true by done. simpl. rewrite bool_decide_eq_true. naive_solver.
      + apply runs_ret. apply HQ. naive_solver.
    - apply elem_of_cons in Hp as [->|Hp]; [naive_solver|]. apply elem_of_list_fmap in Hp as ([a v] & -> & Hp). simpl in *.
      apply elem_of_list_lookup in Hp as [i Ei]. destruct (find_ctx _ _ _ _ Ei) as (k & c & l & r & Heq & Hpre & Hpost).
      assert (Hne : t <> Leaf) by (by intros ->).
      rbind. eapply (runs_get_lm (t_hdr o)); [exact Hh|]. rbind. eapply (runs_root (t_hdr o)); [exact Hh|].
      rbind. rewrite Heq at 1. pose proof Ht as Ht'. rewrite Heq in Ht'. eapply (black_count_spec comp); [exact Ht'|].
      set (len := cblack k + blacks c). rbind. apply runs_cell_fuel. rbind.
      replace a with (tpos (t_hdr o) (elems t) i) at 1 by (by eapply tpos_some).
      pose proof (lookup_lt_Some _ _ _ Ei) as Hi.
      assert (Hfirst : a = first_of (t_hdr o) (elems t) <-> i = 0).
      { replace (first_of (t_hdr o) (elems t)) with (tpos (t_hdr o) (elems t) 0) by (by rewrite tpos_first). split.
        - intros Ha. destruct (elems t !! 0) as [[a0 v0]|] eqn:E0; [|apply lookup_ge_None in E0; lia].
          rewrite (tpos_some _ _ _ _ _ E0) in Ha. subst a0. pose proof (tin_nodup _ _ _ _ _ _ _ _ Ht) as Hn. apply NoDup_cons in Hn as [_ Hn].
          eapply NoDup_lookup; [exact Hn|by rewrite list_lookup_fmap, Ei|by rewrite list_lookup_fmap, E0].
        - intros ->. by rewrite (tpos_some _ _ _ _ _ Ei). }
      assert (Hlen : i = 0 -> len = lblack 0 t).
      { intros ->. rewrite take_0 in Hpre. apply app_eq_nil in Hpre as [Hk Hl]. rewrite Heq, lblack_min by done.
        destruct l as [|cl a1 v1 l1 r1]; [done|]. simpl in Hl. by destruct (elems l1). }
      eapply (verify_loop_spec _ (t_alloc o)); [exact Ht|lia| |].
      { pose proof (fuel_bound _ _ _ _ _ _ _ _ Ht). lia. }
      destruct (all_from comp len t i) eqn:Eall; simpl.
      2: { apply runs_ret. apply HQ. split; [done|]. intros (Ha & _ & Hck). exfalso. apply Hfirst in Ha. specialize (Hlen Ha).
           rewrite <-Hlen in Hck. apply all_from_spec in Hck. congruence. }
      rbind. eapply (runs_get_lm (t_hdr o)); [exact Hh|]. rbind. eapply (runs_root (t_hdr o)); [exact Hh|].
      rbind. eapply (s_minimum_spec cf _ _ _ _ _ _ Top t); [exact Ht|done|by eapply tin_linear|].
      destruct (decide (Some a <> _)) as [Hd|Hd].
      { apply runs_ret. apply HQ. split; [done|]. intros (Ha & _). exfalso. by rewrite Ha in Hd. }
      assert (Ha : a = first_of (t_hdr o) (elems t)).
      { destruct (decide (a = first_of (t_hdr o) (elems t))) as [|Hx]; [done|]. exfalso. apply Hd. intros [= Hy]. by apply Hx. }
      rbind. eapply (runs_get_rm (t_hdr o)); [exact Hh|]. rbind. eapply (runs_root (t_hdr o)); [exact Hh|].
      rbind. eapply (s_maximum_spec cf _ _ _ _ _ _ Top t); [exact Ht|done|by eapply tin_linear|].
      destruct (decide (Some q <> _)) as [Hd'|Hd'].
      { apply runs_ret. apply HQ. split; [done|]. intros (_ & Hq & _). exfalso. by rewrite Hq in Hd'. }
      apply runs_ret. apply HQ. split; [|done]. intros _. split; [done|]. split.
      { destruct (decide (q = last_of (t_hdr o) (elems t))) as [|Hx]; [done|]. exfalso. apply Hd'. intros [= Hy]. by apply Hx. }
      apply Hfirst in Ha. rewrite <-(Hlen Ha). apply all_from_spec. by subst i.
  Qed.

  Lemma accepts_right o n t hf w : links_is o n t hf w ->
    (accepts (t_hdr o) (first_of (t_hdr o) (elems t)) (last_of (t_hdr o) (elems t)) n t <-> (n = 0 <-> t = Leaf) /\ checked comp (lblack 0 t) 0 t).
  Proof.
    intros Hl%linked_is_tin. unfold accepts. assert (t = Leaf \/ t <> Leaf) as [->|Hne] by (destruct t; [by left|by right]).
    - simpl. rewrite decide_True by (by right). unfold first_of, last_of. simpl. tauto.
    - assert (first_of (t_hdr o) (elems t) <> t_hdr o) as Hb.
      { destruct (elems t) as [|[a v] xs] eqn:Ee. { destruct t as [|c a v l r]; [done|]. simpl in Ee. by destruct (elems l). }
        unfold first_of. simpl. intros ->. pose proof (tin_nodup _ _ _ _ _ _ _ _ Hl) as Hn. rewrite Ee in Hn.
        apply NoDup_cons in Hn as [Hn _]. apply Hn. csimpl. set_solver. }
      destruct (decide _) as [[->|?]|Hn]; [naive_solver|done|]. naive_solver.
  Qed.
  Lemma first_in o t : first_of (t_hdr o) (elems t) ∈ t_hdr o :: (elems t).*1.
  Proof. unfold first_of. destruct (elems t) as [|[a v] xs]; csimpl; set_solver. Qed.

  (** ** Red-black trees pass *)

  Lemma bal_lblack n b t : bal n t -> lblack b t = b + n.
  Proof.
    revert n b. induction t as [|c a v l IHl r IHr]; intros n b; simpl; [lia|]. destruct c.
    - intros [Hl _]. rewrite (IHl n) by done. simpl. lia.
    - intros (m & -> & Hl & _). rewrite (IHl m) by done. simpl. lia.
  Qed.

  Lemma rootval_in t u : rootval t = Some u -> u ∈ (elems t).*2.
  Proof. destruct t as [|c a v l r]; [done|]. simpl. intros [= ->]. rewrite fmap_app. csimpl. set_solver. Qed.
  Lemma lsorted_mid (X Y : list (addr * V)) a v :
    lsorted comp (X ++ (a, v) :: Y).*2 ->
    lsorted comp X.*2 /\ lsorted comp Y.*2 /\ (forall u, u ∈ X.*2 -> comp v u = false) /\ (forall u, u ∈ Y.*2 -> comp u v = false).
  Proof.
    rewrite fmap_app. csimpl. generalize X.*2 Y.*2. intros l r Hs.
    assert (Hr : forall j, (l ++ v :: r) !! (S (length l) + j) = r !! j).
    { intros j. rewrite lookup_app_r by lia. replace (S (length l) + j - length l) with (S j) by lia. done. }
    assert (Hv : (l ++ v :: r) !! length l = Some v). { by rewrite list_lookup_middle. }
    split_and!.
    - intros i j x y Hij Hi Hj. pose proof (lookup_lt_Some _ _ _ Hj). pose proof (lookup_lt_Some _ _ _ Hi).
      apply (Hs i j x y Hij); by rewrite lookup_app_l by lia.
    - intros i j x y Hij Hi Hj. apply (Hs (S (length l) + i) (S (length l) + j)); [lia|by rewrite Hr|by rewrite Hr].
    - intros u [i Hi]%elem_of_list_lookup. pose proof (lookup_lt_Some _ _ _ Hi).
      apply (Hs i (length l) u v); [done| |done]. by rewrite lookup_app_l by lia.
    - intros u [i Hi]%elem_of_list_lookup. apply (Hs (length l) (S (length l) + i) v u); [lia|done|by rewrite Hr].
  Qed.
  Lemma bal_checked n b t : bal n t -> nored t -> lsorted comp (elems t).*2 -> checked comp (b + n) b t.
  Proof.
    revert n b. induction t as [|c a v l IHl r IHr]; intros n b; [done|]. cbn [bal nored elems checked].
    intros Hb (Hc & Hnl & Hnr) Hs. apply lsorted_mid in Hs as (Hsl & Hsr & Hl & Hr).
    split; [done|]. split; [intros u Hu; by apply Hl, rootval_in|]. split; [intros u Hu; by apply Hr, rootval_in|].
    destruct c; simpl blacks.
    - destruct Hb as [Hbl Hbr]. rewrite Nat.add_0_r. split_and!; [|by apply IHl|by apply IHr].
      intros -> ->. simpl in Hbl. lia.
    - destruct Hb as (m & -> & Hbl & Hbr). replace (b + S m) with (b + 1 + m) by lia. split_and!; [|by apply IHl|by apply IHr].
      intros -> ->. simpl in Hbl. lia.
  Qed.

  Lemma mset_verify o xs hf w : mset_is comp o xs hf w -> rb_verify cf comp o w = Done true w.
  Proof.
    intros Hm. assert (exists t, elems t = xs /\ links_is o (length xs) t hf w /\ rb t /\ lsorted comp xs.*2) as (t & He & Hl & Hrb & Hs).
    { destruct Hm as (hv & (Hs & t & He & Hh & Ht & Hn & Hd & Hrb) & Hw). exists t. split_and!; [done| |done|done].
      exists hv. split; [|done]. rewrite He in *. unfold linked_own. rewrite He. done. }
    apply t_runs_state. intros Q HQ. eapply rb_verify_spec; [by apply linked_is_tin|apply first_in|]. intros b Hb.
    assert (b = true) as ->; [|done]. apply Hb. rewrite accepts_right by done. split.
    - rewrite <-He. split; [|by intros ->]. destruct t; [done|]. simpl. rewrite app_length. simpl. lia.
    - destruct Hrb as (_ & Hnr & n & Hbal). rewrite (bal_lblack n 0 t Hbal). apply bal_checked; [done|done|]. by rewrite He.
  Qed.
End ver2.
