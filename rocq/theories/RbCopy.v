(** * Copying a tree *)
From Verif Require RbAsks.
From Verif Require Import AsksSpec.
From Verif Require Export RbQuery.

(** List membership. *)
Ltac mem := rewrite ?elem_of_app, ?elem_of_cons, ?elem_of_app, ?elem_of_nil; tauto.
Ltac mem_in H := rewrite ?elem_of_app, ?elem_of_cons, ?elem_of_app, ?elem_of_nil in H; mem.

Section copy.
  Context {V : Type} {L : limit} (cf : cfg V) (comp : V -> V -> bool).
  Notation H := (gmap addr (tcell V)).
  Notation W := (world (tcell V)).
  Notation E := (addr * V)%type.
  Implicit Types h hf : H.
  Implicit Types w : W.
  Implicit Types t s : tree V.
  Implicit Types n : nat.
  Implicit Types k : @ctx V.
  Implicit Types o : tset.
  Implicit Types xs : list E.
  Notation addrs t := (elems t).*1.
  Notation sin := (sin comp).

  (** Same colors and values, other addresses. *)
  Fixpoint alike s s' : Prop :=
    match s, s' with
    | Leaf, Leaf => True
    | Node c _ v l r, Node c' _ v' l' r' => c = c' /\ v = v' /\ alike l l' /\ alike r r'
    | _, _ => False
    end.
  Lemma alike_height s s' : alike s s' -> height s' = height s.
  Proof.
    revert s'. induction s as [|c a v l IHl r IHr]; intros [|c' a' v' l' r']; simpl; try done.
    intros (_ & _ & Hl & Hr). by rewrite (IHl _ Hl), (IHr _ Hr).
  Qed.
  Lemma alike_values s s' : alike s s' -> (elems s').*2 = (elems s).*2.
  Proof.
    revert s'. induction s as [|c a v l IHl r IHr]; intros [|c' a' v' l' r']; simpl; try done.
    intros (_ & <- & Hl & Hr). rewrite !fmap_app. csimpl. by rewrite (IHl _ Hl), (IHr _ Hr).
  Qed.
  Lemma alike_length s s' : alike s s' -> length (elems s') = length (elems s).
  Proof. intros Ha. apply alike_values, (f_equal length) in Ha. by rewrite !fmap_length in Ha. Qed.
  Lemma alike_bal n s s' : alike s s' -> bal n s -> bal n s'.
  Proof.
    revert n s'. induction s as [|c a v l IHl r IHr]; intros n [|c' a' v' l' r']; simpl; try done.
    intros (<- & _ & Hl & Hr). destruct c.
    - intros [? ?]. auto.
    - intros (m & -> & ? & ?). exists m. auto.
  Qed.
  Lemma alike_rb s s' : alike s s' -> rb s -> rb s'.
  Proof.
    intros Ha (Hc & Hn & n & Hb).
    assert (forall s s', alike s s' -> tcol s' = tcol s) as Hcol. { intros [] []; simpl; try done. by intros (-> & _). }
    split_and!.
    - by rewrite (Hcol s).
    - clear Hc Hb. revert s' Ha Hn. induction s as [|c a v l IHl r IHr]; intros [|c' a' v' l' r']; simpl; try done.
      intros (<- & _ & Hl & Hr) (Hc & Hnl & Hnr). rewrite (Hcol l l'), (Hcol r r') by done. split_and!; auto.
    - exists n. by eapply alike_bal.
  Qed.

  (** [h] is [h0] and, at fresh addresses, the tree [T] below [p]. *)
  Record built (al : alloc_id) h0 h (p : addr) (T : tree V) : Prop := Built {
    b_tree : tree_at al h p T;
    b_nodup : NoDup (addrs T);
    b_new : forall a, a ∈ addrs T -> h0 !! a = None;
    b_out : forall a, a ∉ addrs T -> h !! a = h0 !! a
  }.

  Lemma built_leaf al h p : built al h h p Leaf.
  Proof. split; [done|apply NoDup_nil_2|set_solver|done]. Qed.
  Lemma built_old al h0 h p T a c : built al h0 h p T -> h0 !! a = Some c -> h !! a = Some c.
  Proof.
    intros [_ _ Hnew Hout] Ha. rewrite Hout; [done|]. intros Hin. apply Hnew in Hin. congruence.
  Qed.
  Lemma built_fresh al h0 h p T a : built al h0 h p T -> h !! a = None -> a ∉ addrs T /\ h0 !! a = None.
  Proof.
    intros [Ht _ Hnew Hout] Ha. assert (a ∉ addrs T) as Hn.
    { intros Hin. eapply tat_some in Ht as [? ?]; [|exact Hin]. congruence. }
    split; [done|]. by rewrite <-Hout.
  Qed.
  Lemma built_size al h0 h p T : built al h0 h p T -> size h0 <= size h.
  Proof.
    intros Hb. assert (dom h0 ⊆ dom h) as Hsub.
    { intros a Ha. apply elem_of_dom in Ha as [c Ha]. apply elem_of_dom. exists c. by eapply built_old. }
    apply subseteq_size in Hsub. by rewrite !size_dom in Hsub.
  Qed.
  Lemma built_log al h0 h p T B : built al h0 h p T -> B <= 2 * Nat.log2 (size h0) -> B <= 2 * Nat.log2 (size h).
  Proof. intros Hb HB. apply built_size, Nat.log2_le_mono in Hb. lia. Qed.
  Lemma plug_height_mono k s s' : height s <= height s' -> height (plug k s) <= height (plug k s').
  Proof. revert s s'. induction k as [|[] c a v u k IH]; intros s s' Hs; simpl; [done| |]; apply IH; simpl; lia. Qed.
  Lemma built_erase o h0 p T w (Q : unit -> W -> Prop) :
    built (t_alloc o) h0 (w_heap w) p T -> height T <= 2 * Nat.log2 (size h0) ->
    Q tt (set_heap h0 w) -> runs (m_erase o (root T)) w Q.
  Proof.
    intros Hb Hf HQ. unfold m_erase. rbind. apply runs_tree_fuel.
    apply (built_log _ _ _ _ _ _ Hb) in Hf. pose proof (Nat.le_lt_trans _ _ _ Hf (rounds_ok _)) as Hf'. clear Hf.
    destruct Hb as [Ht Hn Hnew Hout]. eapply (erase_sub_spec comp); [done|exact Ht|done|done|].
    intros h' H1 H2. assert (h' = h0) as ->; [|done]. apply map_eq. intros a.
    destruct (decide (a ∈ addrs T)) as [Hin|Hin].
    - rewrite H1, Hnew; done.
    - rewrite H2, Hout; done.
  Qed.
  Lemma built_node al h0 h h' p k c a v l r l' r' :
    built al h0 h p (plug k (Node c a v l r)) ->
    h' !! a = Some (ncell al c (cpar p k) (root l') (root r') v) ->
    tree_at al h' a l' -> tree_at al h' a r' ->
    (forall x, x ∈ (cpre k).*1 ++ (cpost k).*1 -> h' !! x = h !! x) ->
    NoDup (addrs (plug k (Node c a v l' r'))) ->
    (forall x, x ∈ addrs l' ++ addrs r' -> h0 !! x = None) ->
    (forall x, x ∉ addrs (plug k (Node c a v l' r')) -> h' !! x = h0 !! x) ->
    built al h0 h' p (plug k (Node c a v l' r')).
  Proof.
    intros [Ht Hn Hnew Hout] Ha Hl Hr Hk Hn' Hnew' Hout'. split; [|done| |done].
    - apply tat_plug in Ht as [Ht _]. apply tat_plug. split; [|by split_and!]. eapply (fr_ext al p); [|exact Ht]. exact Hk.
    - intros x Hx. rewrite addrs_plug in Hx. simpl in Hx. rewrite (fmap_app _ (elems l')) in Hx. csimpl in Hx.
      assert (x ∈ (cpre k).*1 ++ (cpost k).*1 \/ x = a \/ x ∈ addrs l' ++ addrs r') as [Hx'|[->|Hx']] by (mem_in Hx).
      + apply Hnew. rewrite addrs_plug. apply elem_of_app. by left.
      + apply Hnew. rewrite addrs_plug. simpl. rewrite (fmap_app _ (elems l)). csimpl. mem.
      + auto.
  Qed.

  (** ** counting the requests of a copy that fails *)
  Lemma asked_set_heap n (w w' : W) h : asked n w w' -> asked n w (set_heap h w').
  Proof. done. Qed.
  Lemma asked_later j m n (w w1 w2 : W) :
    w_allocs w1 = j + w_allocs w -> w_ctors w1 = j + w_ctors w -> asked m w1 w2 -> w_err w2 <> None -> j + m <= n -> asked n w w2.
  Proof.
    intros Ha Hc [(? & _)|(He & k & Hk & Ha2 & Hc2)] Hn Hjm; [done|]. right. split; [done|]. exists (j + k). lia.
  Qed.
  Lemma runs_asks {A} n (m : M (tcell V) A) w (Q : A -> W -> Prop) :
    asks n m -> w_err w = None -> runs m w (fun a w' => asked n w w' -> Q a w') -> runs m w Q.
  Proof. intros Hm He (a & w' & Hr & HQ). exists a, w'. split; [done|]. apply HQ. by eapply Hm. Qed.

  Lemma clone_spec o h p s c x v l r als w (Q : option addr -> W -> Prop) :
    w_err w = None -> s = Node c x v l r -> h = w_heap w -> tree_at als h p s ->
    (forall y orc, h !! y = None ->
       Q (Some y) (World (<[y := TCell (Some c) None (Some None) (Some None) (TNode (t_alloc o) (Some v))]> h)
                     orc None (S (w_allocs w)) (S (w_ctors w)))) ->
    (forall w' e, w_heap w' = h -> w_err w' = Some e -> tnode_error cf e -> asked 1 w w' -> Q None w') ->
    runs (clone_node cf o x) w Q.
  Proof.
    intros He -> -> (Hx & _) Hok Hfail. unfold clone_node. rbind. eapply runs_asks; [apply RbAsks.asks_create_node|done|].
    apply (create_spec cf o _ v); [done|simpl; eauto| |].
    - intros y orc Hy _. rbind. apply runs_has_err. simpl. rbind. apply runs_deref.
      assert (x <> y) by congruence.
      rbind. eapply (runs_get_color als DL); [simpl; rewrite lookup_insert_ne by done; exact Hx|].
      unfold set_color, set_left, set_right.
      rbind. rbind. eapply runs_load; [simpl; apply lookup_insert|]. eapply runs_store; [simpl; apply lookup_insert|].
      rbind. rbind. eapply runs_load; [simpl; apply lookup_insert|]. eapply runs_store; [simpl; apply lookup_insert|].
      rbind. rbind. eapply runs_load; [simpl; apply lookup_insert|]. eapply runs_store; [simpl; apply lookup_insert|].
      apply runs_ret. simpl. unfold set_heap; simpl. rewrite !insert_insert. by apply Hok.
    - intros w' e Hw' He' Hne Hn. rbind. apply runs_has_err. rewrite He'. apply runs_ret. by eapply Hfail.
  Qed.

  Definition m_copy_ok (fuel : nat) : Prop := forall o h p ps s als w (Q : option addr -> W -> Prop),
    w_err w = None -> h = w_heap w -> tree_at als h ps s -> height s < fuel -> height s <= 2 * Nat.log2 (size h) ->
    (forall h' orc s', alike s s' -> built (t_alloc o) h h' p s' ->
       Q (root s') (World h' orc None (length (elems s) + w_allocs w) (length (elems s) + w_ctors w))) ->
    (forall w' e, w_heap w' = h -> w_err w' = Some e -> tnode_error cf e -> asked (length (elems s)) w w' -> Q None w') ->
    runs (match root s with Some x => m_copy cf fuel o x p | None => ret None end) w Q.

  Definition copy_loop_ok (fuel : nat) : Prop := forall o h0 p0 c a v r k top ps s als w (Q : option addr -> W -> Prop),
    w_err w = None -> built (t_alloc o) h0 (w_heap w) p0 (plug k (Node c a v Leaf r)) ->
    croot k (Some a) = Some top ->
    tree_at als h0 ps s -> height s < fuel -> height (plug k (Node c a v s r)) <= 2 * Nat.log2 (size h0) ->
    (forall h' orc s', alike s s' -> built (t_alloc o) h0 h' p0 (plug k (Node c a v s' r)) ->
       Q (Some top) (World h' orc None (length (elems s) + w_allocs w) (length (elems s) + w_ctors w))) ->
    (forall w' e, w_heap w' = h0 -> w_err w' = Some e -> tnode_error cf e -> asked (length (elems s)) w w' -> Q None w') ->
    runs (copy_loop cf fuel o top a (root s)) w Q.

  Lemma tree_at_built als al h0 h p T ps s :
    built al h0 h p T -> tree_at als h0 ps s -> tree_at als h ps s.
  Proof.
    intros Hb Hs. eapply tat_ext; [|exact Hs]. intros x Hx. eapply tat_some in Hx as [c Hc]; [|exact Hs].
    rewrite Hc. by eapply built_old.
  Qed.

  (** the right subtree of a fresh node, and then *)
  Lemma copy_right fuel o h0 p0 k c y v r als ps top (cont : bool -> M (tcell V) (option addr)) w (Q : option addr -> W -> Prop) :
    m_copy_ok fuel ->
    w_err w = None -> built (t_alloc o) h0 (w_heap w) p0 (plug k (Node c y v Leaf Leaf)) ->
    croot k (Some y) = Some top ->
    tree_at als h0 ps r -> height r < fuel -> height r <= 2 * Nat.log2 (size h0) ->
    (forall h' orc r', alike r r' -> built (t_alloc o) h0 h' p0 (plug k (Node c y v Leaf r')) ->
       runs (cont false) (World h' orc None (length (elems r) + w_allocs w) (length (elems r) + w_ctors w)) Q) ->
    (forall w' e, built (t_alloc o) h0 (w_heap w') p0 (plug k (Node c y v Leaf Leaf)) -> 
       w_err w' = Some e -> tnode_error cf e -> asked (length (elems r)) w w' -> runs (cont true) w' Q) ->
    runs (let! e := (match root r with
                     | Some r =>
                         let! r' := m_copy cf fuel o r y in
                         do! set_right y r' in
                         has_err
                     | None => ret false
                     end) in cont e) w Q.
  Proof.
    intros IH He Hb Htop Hr Hf Hl Hok Hfail.
    rbind. destruct r as [|cr ar vr rl rr]; simpl root; cbv iota.
    { apply runs_ret. specialize (Hok (w_heap w) (w_orc w) Leaf). simpl in Hok. rewrite <-He in Hok. destruct w. by apply Hok. }
    rbind. set (r := Node cr ar vr rl rr) in *.
    pose proof (IH o (w_heap w) y ps r als w) as IH'. simpl root in IH'. cbv iota in IH'. apply IH'; clear IH'.
    - done.
    - done.
    - by eapply tree_at_built.
    - done.
    - by eapply built_log.
    - intros h2 orc r' Hal Hb2.
      assert (w_heap w !! y = Some (ncell (t_alloc o) c (cpar p0 k) None None v)) as Hy.
      { pose proof (b_tree _ _ _ _ _ Hb) as Ht. apply tat_plug in Ht as [_ Ht]. by destruct Ht. }
      pose proof (built_old _ _ _ _ _ _ _ Hb2 Hy) as Hy2.
      rbind. eapply (runs_set_child (t_alloc o) DR); [exact Hy2|]. simpl. apply runs_has_err. simpl.
      unfold set_heap; simpl. apply (Hok _ _ r' Hal).
      assert (forall x, x ∈ addrs r' -> x ∉ addrs (plug k (Node c y v Leaf Leaf))) as Hdisj.
      { intros x Hx Hx'. apply (b_new _ _ _ _ _ Hb2) in Hx.
        eapply tat_some in Hx' as [? ?]; [|exact (b_tree _ _ _ _ _ Hb)]. congruence. }
      assert (addrs (plug k (Node c y v Leaf r')) ≡ₚ addrs (plug k (Node c y v Leaf Leaf)) ++ addrs r') as Hperm.
      { rewrite !addrs_plug. csimpl. perm_solve. }
      assert (y ∈ addrs (plug k (Node c y v Leaf Leaf))) as Hyin.
      { rewrite addrs_plug. csimpl. mem. }
      eapply built_node; [exact Hb| | | | | | |].
      + apply lookup_insert.
      + done.
      + eapply tat_ext; [|exact (b_tree _ _ _ _ _ Hb2)]. intros x Hx. rewrite lookup_insert_ne; [done|].
        intros <-. by apply (Hdisj y).
      + intros x Hx. assert (x <> y) as Hne.
        { intros ->. pose proof (b_nodup _ _ _ _ _ Hb) as Hn. rewrite addrs_plug in Hn. csimpl in Hn.
          apply NoDup_app in Hn as (_ & Hn & _). apply (Hn y Hx). mem. }
        rewrite lookup_insert_ne by done. apply (b_out _ _ _ _ _ Hb2). intros Hx'. apply (Hdisj x Hx').
        rewrite addrs_plug. apply elem_of_app. by left.
      + eapply nodup_perm; [symmetry; exact Hperm|]. apply NoDup_app. split_and!.
        * apply (b_nodup _ _ _ _ _ Hb).
        * intros x Hx Hx'. by apply (Hdisj x).
        * apply (b_nodup _ _ _ _ _ Hb2).
      + intros x Hx. simpl in Hx. pose proof (b_new _ _ _ _ _ Hb2 _ Hx) as Hx'. by eapply built_fresh in Hx' as [_ ?].
      + intros x Hx. rewrite Hperm in Hx. apply not_elem_of_app in Hx as [Hx1 Hx2].
        rewrite lookup_insert_ne by congruence. rewrite (b_out _ _ _ _ _ Hb2) by done. by apply (b_out _ _ _ _ _ Hb).
    - intros w' e Hw' He' Hne Hn.
      assert (w_heap w' !! y = Some (ncell (t_alloc o) c (cpar p0 k) None None v)) as Hy.
      { rewrite Hw'. pose proof (b_tree _ _ _ _ _ Hb) as Ht. apply tat_plug in Ht as [_ Ht]. by destruct Ht. }
      rbind. eapply (runs_set_child (t_alloc o) DR); [exact Hy|]. simpl. apply runs_has_err. simpl. rewrite He'.
      eapply Hfail; [|done|done|by eapply asked_set_heap]. simpl. rewrite insert_id by done. by rewrite Hw'.
  Qed.

  Lemma copy_ok fuel : m_copy_ok fuel /\ copy_loop_ok fuel.
  Proof.
    induction fuel as [|fuel [IHm IHl]]; [split; intros ?; intros; lia|]. split.
    - intros o h p ps s als w Q He Hh Hs Hf Hlog Hok Hfail. destruct s as [|c x v l r]; simpl root; cbv iota.
      { apply runs_ret. specialize (Hok h (w_orc w) Leaf). simpl in Hok. rewrite <-He, Hh in Hok. destruct w.
        apply Hok; [done|apply built_leaf]. }
      simpl m_copy. rbind. eapply clone_spec; [done|done|exact Hh|exact Hs| |].
      + intros y orc Hy. rbind. apply runs_has_err. simpl. rbind. apply runs_deref.
        rbind. unfold set_parent. rbind. eapply runs_load; [simpl; apply lookup_insert|].
        eapply runs_store; [simpl; apply lookup_insert|]. simpl. unfold set_heap; simpl. rewrite insert_insert.
        assert (built (t_alloc o) h (<[y := ncell (t_alloc o) c p None None v]> h) p (Node c y v Leaf Leaf)) as Hb.
        { split; csimpl.
          - split_and!; [apply lookup_insert|done|done].
          - apply NoDup_singleton.
          - intros a Ha. apply elem_of_list_singleton in Ha as ->. done.
          - intros a Ha. apply lookup_insert_ne. intros <-. apply Ha. by left. }
        pose proof Hs as (Hx & Hsl & Hsr). simpl in Hf, Hlog.
        rbind. eapply (runs_get_child als DR).
        { simpl. rewrite lookup_insert_ne by congruence. exact Hx. }
        eapply (copy_right fuel o h p Top); [done|done|exact Hb|done|exact Hsr|lia|lia| |].
        * intros h2 orc2 r' Hal Hb2. cbv iota. 
          rbind. eapply (runs_get_child als DL).
          { simpl. eapply built_old; [exact Hb2|exact Hx]. }
          eapply (IHl o h p c y v r' Top y x l als); [done|exact Hb2|done|exact Hsl|lia| | |].
          -- simpl. rewrite (alike_height _ _ Hal). lia.
          -- intros h3 orc3 l' Hal3 Hb3. simpl. specialize (Hok h3 orc3 (Node c y v l' r')). simpl in Hok.
             rewrite app_length in Hok. simpl in Hok.
             replace (length (elems l) + (length (elems r) + S (w_allocs w))) with (length (elems l) + S (length (elems r)) + w_allocs w) by lia.
             replace (length (elems l) + (length (elems r) + S (w_ctors w))) with (length (elems l) + S (length (elems r)) + w_ctors w) by lia.
             by apply Hok.
          -- intros w' e Hw' He' Hne Hn. eapply Hfail; [done..|].
             eapply (asked_later (S (length (elems r)))); [| |exact Hn|simpl; by rewrite He'|]; simpl; [lia..|rewrite app_length; simpl; lia].
        * intros w' e Hb' He' Hne Hn. cbv iota. rbind. eapply (built_erase o h p (Node c y v Leaf Leaf)); [exact Hb'|simpl; lia|].
          apply runs_ret. eapply Hfail; [done..|]. apply asked_set_heap.
          eapply (asked_later 1); [| |exact Hn|simpl; by rewrite He'|]; simpl; [lia..|rewrite app_length; simpl; lia].
      + intros w' e Hw' He' Hne Hn. rbind. apply runs_has_err. rewrite He'. apply runs_ret. eapply Hfail; [done..|].
        eapply (asked_later 0); [| |exact Hn|by rewrite He'|]; [done..|simpl; rewrite app_length; simpl; lia].
    - intros o h0 p0 c0 a0 v0 r0 k top ps s als w Q He Hb Htop Hs Hf Hlog Hok Hfail.
      destruct s as [|c x v l r]; simpl root; simpl copy_loop.
      { apply runs_ret. specialize (Hok (w_heap w) (w_orc w) Leaf). simpl in Hok. rewrite <-He in Hok. destruct w. by apply Hok. }
      rbind. eapply clone_spec; [done|done|done|by eapply tree_at_built| |].
      + intros y orc Hy. rbind. apply runs_has_err. simpl. rbind. apply runs_deref.
        assert (w_heap w !! a0 = Some (ncell (t_alloc o) c0 (cpar p0 k) None (root r0) v0)) as Ha0.
        { pose proof (b_tree _ _ _ _ _ Hb) as Ht. apply tat_plug in Ht as [_ Ht]. by destruct Ht. }
        assert (a0 <> y) as Hay by congruence.
        rbind. eapply (runs_set_child (t_alloc o) DL); [simpl; rewrite lookup_insert_ne by done; exact Ha0|]. simpl.
        rbind. unfold set_parent. rbind.
        eapply runs_load; [simpl; rewrite lookup_insert_ne by done; apply lookup_insert|].
        eapply runs_store; [simpl; rewrite lookup_insert_ne by done; apply lookup_insert|]. simpl. unfold set_heap; simpl.
        set (h1 := <[y := _]> (<[a0 := _]> _)).
        destruct (built_fresh _ _ _ _ _ _ Hb Hy) as [Hyn Hy0].
        assert (addrs (plug k (Node c0 a0 v0 (Node c y v Leaf Leaf) r0)) ≡ₚ y :: addrs (plug k (Node c0 a0 v0 Leaf r0))) as Hperm.
        { rewrite !addrs_plug. csimpl. perm_solve. }
        assert (forall z, z <> y -> z <> a0 -> h1 !! z = w_heap w !! z) as Hh1.
        { intros z Hz1 Hz2. unfold h1. by rewrite !lookup_insert_ne by done. }
        assert (a0 ∈ addrs (plug k (Node c0 a0 v0 Leaf r0))) as Ha0in. { rewrite addrs_plug. csimpl. mem. }
        assert (a0 ∉ (cpre k).*1 ++ (cpost k).*1 /\ a0 ∉ addrs r0) as [Ha0k Ha0r].
        { pose proof (b_nodup _ _ _ _ _ Hb) as Hn. rewrite addrs_plug in Hn. csimpl in Hn.
          apply NoDup_app in Hn as (_ & Hn & Hn'). apply NoDup_cons in Hn' as [Hn' _]. split; [|done].
          intros Hin. apply (Hn _ Hin). mem. }
        assert (built (t_alloc o) h0 h1 p0 (plug k (Node c0 a0 v0 (Node c y v Leaf Leaf) r0))) as Hb1.
        { eapply built_node; [exact Hb| | | | | | |].
          - unfold h1. rewrite lookup_insert_ne by done. apply lookup_insert.
          - simpl. split_and!; [apply lookup_insert|done|done].
          - pose proof (b_tree _ _ _ _ _ Hb) as Ht. apply tat_plug in Ht as [_ (_ & _ & Ht)].
            eapply tat_ext; [|exact Ht]. intros z Hz. apply Hh1; [|congruence]. intros ->. apply Hyn. rewrite addrs_plug. csimpl. mem.
          - intros z Hz. apply Hh1; [|congruence]. intros ->. apply Hyn. rewrite addrs_plug. apply elem_of_app. by left.
          - eapply nodup_perm; [symmetry; exact Hperm|]. apply NoDup_cons. split; [done|]. apply (b_nodup _ _ _ _ _ Hb).
          - csimpl. intros z [->|Hz]%elem_of_cons; [done|]. apply (b_new _ _ _ _ _ Hb). rewrite addrs_plug. csimpl. mem.
          - intros z Hz. rewrite Hperm in Hz. apply not_elem_of_cons in Hz as [Hz1 Hz2].
            rewrite Hh1 by congruence. by apply (b_out _ _ _ _ _ Hb). }
        pose proof Hs as (Hx & Hsl & Hsr). simpl in Hf.
        rbind. eapply (runs_get_child als DR).
        { simpl. eapply built_old; [exact Hb1|exact Hx]. }
        eapply (copy_right fuel o h0 p0 (Frame DL c0 a0 v0 r0 k)); [done|done|exact Hb1|exact Htop|exact Hsr|lia| | |].
        { pose proof (plug_height k (Node c0 a0 v0 (Node c x v l r) r0)) as Hp. simpl in Hp. lia. }
        * intros h2 orc2 r' Hal Hb2. cbv iota.
          rbind. eapply (runs_get_child als DL).
          { simpl. eapply built_old; [exact Hb2|exact Hx]. }
          eapply (IHl o h0 p0 c y v r' (Frame DL c0 a0 v0 r0 k) top x l als); [done|exact Hb2|done|exact Hsl|lia| | |].
          -- simpl. etrans; [|exact Hlog]. apply plug_height_mono. simpl. rewrite (alike_height _ _ Hal). done.
          -- intros h3 orc3 l' Hal3 Hb3. simpl. specialize (Hok h3 orc3 (Node c y v l' r')). simpl in Hok.
             rewrite app_length in Hok. simpl in Hok.
             replace (length (elems l) + (length (elems r) + S (w_allocs w))) with (length (elems l) + S (length (elems r)) + w_allocs w) by lia.
             replace (length (elems l) + (length (elems r) + S (w_ctors w))) with (length (elems l) + S (length (elems r)) + w_ctors w) by lia.
             by apply Hok.
          -- intros w' e Hw' He' Hne Hn. eapply Hfail; [done..|].
             eapply (asked_later (S (length (elems r)))); [| |exact Hn|simpl; by rewrite He'|]; simpl; [lia..|rewrite app_length; simpl; lia].
        * intros w' e Hb' He' Hne Hn. cbv iota. rbind.
          replace (Some top) with (root (plug k (Node c0 a0 v0 (Node c y v Leaf Leaf) r0))) by (by rewrite root_plug).
          eapply (built_erase o h0 p0); [exact Hb'| |].
          { etrans; [|exact Hlog]. apply plug_height_mono. simpl. lia. }
          apply runs_ret. eapply Hfail; [done..|]. apply asked_set_heap.
          eapply (asked_later 1); [| |exact Hn|simpl; by rewrite He'|]; simpl; [lia..|rewrite app_length; simpl; lia].
      + intros w' e Hw' He' Hne Hn. rbind. apply runs_has_err. rewrite He'. rbind.
        replace (Some top) with (root (plug k (Node c0 a0 v0 Leaf r0))) by (by rewrite root_plug).
        eapply (built_erase o h0 p0); [by rewrite Hw'| |].
        { etrans; [|exact Hlog]. apply plug_height_mono. simpl. lia. }
        apply runs_ret. eapply Hfail; [done..|]. apply asked_set_heap.
        eapply (asked_later 0); [| |exact Hn|by rewrite He'|]; [done..|simpl; rewrite app_length; simpl; lia].
  Qed.

  (** ** copy_nothrow *)

  (** The set [o] with elements [xs] is part of the heap fragment [hf]. *)
  Definition there o xs hf : Prop := exists t,
    hf !! t_hdr o = Some (hcell (root t) (first_of (t_hdr o) xs) (last_of (t_hdr o) xs) (length xs)) /\
    tree_at (t_alloc o) hf (t_hdr o) t /\ elems t = xs /\ rb t /\ asc comp xs /\ NoDup xs.*1.

  Lemma alike_asc s s' : alike s s' -> asc comp (elems s) -> asc comp (elems s').
  Proof. intros Ha. rewrite !asc_ascending. by rewrite (alike_values _ _ Ha). Qed.

  Lemma copy_spec_asks o other xs ys t hf w (Q : unit -> W -> Prop) :
    t_hdr o <> t_hdr other -> w_err w = None ->
    sin o xs (w_heap w) hf t -> there other ys hf ->
    (forall h' orc zs t', zs.*2 = ys.*2 -> sin o zs h' hf t' ->
       Q tt (World h' orc None (length ys + w_allocs w) (length ys + w_ctors w))) ->
    (forall w' e, sin o [] (w_heap w') hf Leaf -> w_err w' = Some e -> tnode_error cf e -> asked (length ys) w w' -> Q tt w') ->
    runs (t_copy cf o other) w Q.
  Proof.
    intros Hne He Hs (s & Hh & Ht & HE & Hrb & Ha & Hnd) Hok Hfail. unfold t_copy. rewrite decide_False by done.
    rbind. eapply clear_spec; [exact Hs|]. clear t Hs. intros h1 Hs.
    rbind. apply runs_has_err. simpl. rewrite He.
    assert (forall a c, hf !! a = Some c -> h1 !! a = Some c) as Hold.
    { intros a c Hc. destruct Hs as ([_ _ _ Hout Hnone] & _). rewrite Hout; [done|]. intros Hin. apply Hnone in Hin. congruence. }
    assert (tree_at (t_alloc other) h1 (t_hdr other) s) as Ht1.
    { eapply tat_ext; [|exact Ht]. intros a Hin. eapply tat_some in Hin as [c Hc]; [|exact Ht]. rewrite Hc. auto. }
    rbind. eapply runs_root; [simpl; by apply Hold|].
    destruct (root s) as [x|] eqn:Er.
    2: { assert (s = Leaf) as -> by (by destruct s). simpl in HE. subst ys. apply runs_ret.
         specialize (Hok h1 (w_orc w) [] Leaf eq_refl Hs). simpl in Hok. rewrite <-He in Hok. exact Hok. }
    assert (s <> Leaf) as Hsne by (by intros ->).
    rbind. apply runs_tree_fuel. rbind.
    destruct (copy_ok (rounds (size h1))) as [Hm _].
    assert (height s <= 2 * Nat.log2 (size h1)) as Hlog.
    { pose proof (rb_height s Hrb) as Hh'. enough (Nat.log2 (S (length (elems s))) <= Nat.log2 (size h1)) by lia.
      apply Nat.log2_le_mono. rewrite HE, <-(fmap_length fst).
      assert (list_to_set (t_hdr o :: ys.*1) ⊆ dom h1) as Hsub.
      { intros a Hin. apply elem_of_list_to_set in Hin. apply elem_of_dom. apply elem_of_cons in Hin as [->|Hin].
        - rewrite (sin_hdr _ _ _ _ _ _ Hs). eauto.
        - rewrite <-HE in Hin. by eapply tat_some. }
      apply subseteq_size in Hsub. rewrite size_dom, size_list_to_set in Hsub; [exact Hsub|].
      apply NoDup_cons. split; [|done]. intros Hin. rewrite <-HE in Hin. eapply tat_some in Hin as [c Hc]; [|exact Ht].
      destruct Hs as ([_ _ _ _ Hnone] & _). rewrite Hnone in Hc by set_solver. done. }
    pose proof (Hm o h1 (t_hdr o) (t_hdr other) s (t_alloc other) (set_heap h1 w)) as Hm'. rewrite Er in Hm'. cbv iota in Hm'.
    unfold t_end. simpl w_heap. apply Hm'; clear Hm Hm'.
    - done.
    - done.
    - done.
    - pose proof (rounds_ok (size h1)). simpl. lia.
    - done.
    - intros h2 orc s' Hal Hb. rewrite HE. simpl w_allocs. simpl w_ctors. rbind. apply runs_has_err. simpl w_err. cbv iota.
      pose proof (sin_hdr _ _ _ _ _ _ Hs) as Hh1. pose proof (built_old _ _ _ _ _ _ _ Hb Hh1) as Hh2.
      rbind. eapply runs_set_root; [exact Hh2|]. unfold set_heap; simpl.
      assert (tin (t_alloc o) (t_hdr o) (t_hdr o) (t_hdr o) 0 (<[t_hdr o := hcell (root s') (t_hdr o) (t_hdr o) 0]> h2) hf s') as Htin.
      { destruct Hs as ([_ _ _ Hout Hnone] & _). destruct Hb as [Hb1 Hb2 Hb3 Hb4]. simpl in Hout, Hnone.
        assert (t_hdr o ∉ addrs s') as Hni. { intros Hin. apply Hb3 in Hin. congruence. }
        split.
        - apply lookup_insert.
        - eapply tat_ext; [|exact Hb1]. intros a Hin. rewrite lookup_insert_ne by congruence. done.
        - apply NoDup_cons. done.
        - intros a Hin. rewrite lookup_insert_ne by set_solver. rewrite Hb4 by set_solver. apply Hout. set_solver.
        - intros a [->|Hin]%elem_of_cons; [apply Hnone; set_solver|].
          pose proof (Hb3 a Hin) as Hx. destruct (hf !! a) as [c|] eqn:Ec; [|done]. apply Hold in Ec. congruence. }
      assert (rb s') as Hrb' by (by eapply alike_rb).
      assert (s' <> Leaf) as Hs'ne. { intros ->. by destruct s. }
      rbind. eapply runs_root; [apply lookup_insert|].
      rbind. eapply (s_minimum_spec cf (t_alloc o) (t_hdr o) _ _ _ _ Top); [exact Htin|done|by eapply tin_fits|].
      rbind. eapply (runs_set_lm (t_hdr o)); [simpl; apply lookup_insert|]. unfold set_heap; simpl.
      apply (tin_sethdr _ _ _ _ _ (first_of (t_hdr o) (elems s')) (t_hdr o) 0) in Htin.
      rbind. eapply (s_maximum_spec cf (t_alloc o) (t_hdr o) _ _ _ _ Top); [exact Htin|done|by eapply tin_fits|].
      rbind. eapply (runs_set_rm (t_hdr o)); [simpl; apply lookup_insert|]. unfold set_heap; simpl.
      apply (tin_sethdr _ _ _ _ _ (first_of (t_hdr o) (elems s')) (last_of (t_hdr o) (elems s')) 0) in Htin.
      rbind. eapply (runs_get_count other).
      { simpl. rewrite !lookup_insert_ne by done. eapply built_old; [exact Hb|]. apply Hold. exact Hh. }
      eapply runs_set_count; [simpl; apply lookup_insert|]. unfold set_heap; simpl.
      apply (tin_sethdr _ _ _ _ _ (first_of (t_hdr o) (elems s')) (last_of (t_hdr o) (elems s')) (length (elems s'))) in Htin.
      eapply (Hok _ _ (elems s') s'); [by rewrite <-HE; apply alike_values|].
      assert (length ys = length (elems s')) as -> by (rewrite <-HE; symmetry; by apply alike_length).
      split_and!; [exact Htin|done|by eapply alike_rb|]. eapply alike_asc; [exact Hal|]. by rewrite HE.
    - intros w' e Hw' He' Hnode Hn. rbind. apply runs_has_err. rewrite He'. apply runs_ret. rewrite HE in Hn. eapply Hfail; [|done|done|done].
      rewrite Hw'. exact Hs.
  Qed.
  Lemma copy_spec o other xs ys t hf w (Q : unit -> W -> Prop) :
    t_hdr o <> t_hdr other -> w_err w = None ->
    sin o xs (w_heap w) hf t -> there other ys hf ->
    (forall h' orc zs t', zs.*2 = ys.*2 -> sin o zs h' hf t' ->
       Q tt (World h' orc None (length ys + w_allocs w) (length ys + w_ctors w))) ->
    (forall w' e, sin o [] (w_heap w') hf Leaf -> w_err w' = Some e -> tnode_error cf e -> Q tt w') ->
    runs (t_copy cf o other) w Q.
  Proof. intros Hne He Hs Ht Hok Hfail. eapply copy_spec_asks; eauto. Qed.
End copy.
