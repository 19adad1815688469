(** * Depth of nodes, fuel of searches, and concrete sets for examples *)
From Verif Require Export RbHist.

Section extra.
  Context {V : Type} {L : limit} (cf : cfg V) (comp : V -> V -> bool).
  Notation H := (gmap addr (tcell V)).
  Notation W := (world (tcell V)).
  Notation E := (addr * V)%type.
  Implicit Types hv hf : H.
  Implicit Types w : W.
  Implicit Types xs ys : list E.
  Notation sin := (sin comp).

  (** Follow [n] parent links. *)
  Fixpoint climb (n : nat) (a : addr) : M (tcell V) addr :=
    match n with
    | 0 => ret a
    | S n => let! p := parent_of a in climb n p
    end.

  Lemma depth_le_height k c a (v : V) l r : S (depth k) <= height (plug k (Node c a v l r)).
  Proof.
    assert (forall s : tree V, depth k + height s <= height (plug k s)) as Hd.
    { induction k as [|d c' a' v' s' k IH]; intros s; simpl; [lia|]. destruct d; simpl.
      - etrans; [|apply IH]. simpl. lia.
      - etrans; [|apply IH]. simpl. lia. }
    specialize (Hd (Node c a v l r)). simpl in Hd. lia.
  Qed.
  Lemma climb_spec al hdr lm rm n hf k c a v l r w (Q : addr -> W -> Prop) :
    tin al hdr lm rm n (w_heap w) hf (plug k (Node c a v l r)) -> Q hdr w ->
    runs (climb (S (depth k)) a) w Q.
  Proof.
    revert c a v l r. induction k as [|d c' a' v' s' k IH]; intros c a v l r Ht HQ;
      pose proof (tin_node al hdr _ _ _ _ _ _ _ _ _ _ _ Ht) as Ha; cbn [climb depth]; rbind;
      unfold parent_of; rbind; (eapply (runs_get_parent al DL); [exact Ha|]); apply RbProofs.runs_deref.
    - by apply runs_ret.
    - destruct d; (eapply IH; [exact Ht|done]).
  Qed.

  (** ** The searches need few rounds *)

  Definition bound (n : nat) : nat := 2 * Nat.log2 (n + 1).

  Lemma sin_height o xs h hf t : sin o xs h hf t -> height t <= bound (length xs).
  Proof. intros (_ & <- & Hrb & _). unfold bound. rewrite Nat.add_1_r. by apply rb_height. Qed.

  (** ** Concrete trees *)

  Fixpoint tree_heap (al : alloc_id) (p : addr) (t : tree V) : H :=
    match t with
    | Leaf => ∅
    | Node c a v l r =>
        <[ a := TCell (Some c) (Some (Some p)) (Some (root l)) (Some (root r)) (TNode al (Some v)) ]>
          (tree_heap al a l ∪ tree_heap al a r)
    end.
  Definition set_heap_of (al : alloc_id) (hdr : addr) (t : tree V) : H :=
    let xs := elems t in
    <[ hdr := TCell (Some Red) (Some (root t)) (Some (Some (first_of hdr xs))) (Some (Some (last_of hdr xs))) (THead (length xs)) ]>
      (tree_heap al hdr t).

  Lemma tree_heap_dom al p t a : is_Some (tree_heap al p t !! a) <-> a ∈ (elems t).*1.
  Proof.
    revert p. induction t as [|c b v l IHl r IHr]; intros p; simpl.
    - rewrite lookup_empty. split; [by intros []|]. intros Hin. by apply elem_of_nil in Hin.
    - rewrite lookup_insert_is_Some, fmap_app. csimpl. rewrite elem_of_app, elem_of_cons.
      rewrite lookup_union_is_Some, IHl, IHr. destruct (decide (a = b)) as [->|]; [naive_solver|naive_solver].
  Qed.
  Lemma tree_heap_at al p t : NoDup (elems t).*1 -> tree_at al (tree_heap al p t) p t.
  Proof.
    revert p. induction t as [|c a v l IHl r IHr]; intros p Hn; [done|]. simpl in Hn. rewrite fmap_app in Hn. csimpl in Hn.
    apply NoDup_app in Hn as (Hnl & Hd & Hnr). apply NoDup_cons in Hnr as [Har Hnr]. cbn [tree_at tree_heap].
    split; [by rewrite lookup_insert|]. split.
    - eapply tat_ext; [|by apply IHl]. intros x Hx.
      rewrite lookup_insert_ne by (intros ->; apply (Hd x Hx); by left).
      destruct (proj2 (tree_heap_dom al a l x) Hx) as [y Hy]. rewrite Hy. by apply lookup_union_Some_l.
    - eapply tat_ext; [|by apply IHr]. intros x Hx. rewrite lookup_insert_ne by congruence.
      apply lookup_union_r. destruct (tree_heap al a l !! x) eqn:Ex; [|done]. exfalso.
      apply (Hd x); [|by right]. apply (tree_heap_dom al a l). by rewrite Ex.
  Qed.
  (** Every red-black tree with distinct nodes and ascending values is a set. *)
  Lemma set_heap_of_own al hdr t :
    NoDup (hdr :: (elems t).*1) -> rb t -> ascending comp (elems t).*2 ->
    set_own comp al hdr (elems t) (set_heap_of al hdr t).
  Proof.
    intros Hn Hrb Ha. split; [done|]. exists t. split; [done|]. pose proof Hn as [Hh Hn']%NoDup_cons. split_and!.
    - unfold set_heap_of. by rewrite lookup_insert.
    - eapply tat_ext; [|by apply tree_heap_at]. intros x Hx. unfold set_heap_of. rewrite lookup_insert_ne by congruence. done.
    - done.
    - intros a. unfold set_heap_of. rewrite lookup_insert_is_Some, elem_of_cons, tree_heap_dom.
      destruct (decide (a = hdr)); naive_solver.
    - done.
  Qed.

  (** Deciding the conditions on concrete trees. *)
  Fixpoint bal_b (t : tree V) : option nat :=
    match t with
    | Leaf => Some 0
    | Node c _ _ l r =>
        match bal_b l, bal_b r with
        | Some n, Some m => if decide (n = m) then Some (match c with Red => n | Black => S n end) else None
        | _, _ => None
        end
    end.
  Lemma bal_b_sound t n : bal_b t = Some n -> bal n t.
  Proof.
    revert n. induction t as [|c a v l IHl r IHr]; intros n; simpl; [by intros [= <-]|].
    destruct (bal_b l) as [nl|]; [|done]. destruct (bal_b r) as [nr|]; [|done]. case_decide; [|done]. subst.
    destruct c; intros [= <-]; [by auto|]. exists nr. auto.
  Qed.
  Fixpoint nored_b (t : tree V) : bool :=
    match t with
    | Leaf => true
    | Node c _ _ l r =>
        (match c, tcol l, tcol r with Red, Black, Black => true | Red, _, _ => false | _, _, _ => true end) && nored_b l && nored_b r
    end.
  Lemma nored_b_sound t : nored_b t = true -> nored t.
  Proof.
    induction t as [|c a v l IHl r IHr]; simpl; [done|]. rewrite !andb_true_iff. intros ((Hc & Hl) & Hr).
    split_and!; [|auto|auto]. intros ->. destruct (tcol l), (tcol r); done.
  Qed.
  Fixpoint asc_b (vs : list V) : bool :=
    match vs with
    | [] => true
    | v :: vs => forallb (comp v) vs && asc_b vs
    end.
  Lemma asc_b_sound vs : asc_b vs = true -> ascending comp vs.
  Proof.
    induction vs as [|v vs IH]; simpl; [by intros _ i j x y _ Hi|]. rewrite andb_true_iff, forallb_forall. intros [Hf Ha].
    intros i j x y Hij Hi Hj. destruct j as [|j]; [lia|]. simpl in Hj. destruct i as [|i]; simpl in Hi.
    - simplify_eq. apply Hf. apply elem_of_list_In. by eapply elem_of_list_lookup_2.
    - eapply (IH Ha i j); [lia|done|done].
  Qed.
  Definition good_b (hdr : addr) (t : tree V) : bool :=
    bool_decide (NoDup (hdr :: (elems t).*1)) && bool_decide (tcol t = Black) && nored_b t &&
    (match bal_b t with Some _ => true | None => false end) && asc_b (elems t).*2.
  Lemma good_own al hdr t : good_b hdr t = true -> set_own comp al hdr (elems t) (set_heap_of al hdr t).
  Proof.
    unfold good_b. rewrite !andb_true_iff, !bool_decide_eq_true. intros ((((H1 & H2) & H3) & H4) & H5).
    apply set_heap_of_own; [done| |by apply asc_b_sound]. split_and!; [done|by apply nored_b_sound|].
    destruct (bal_b t) as [n|] eqn:Hb; [|done]. exists n. by apply bal_b_sound.
  Qed.
  Lemma good_is al hdr t orc : good_b hdr t = true ->
    set_is comp (TSet al hdr) (elems t) ∅ (World (set_heap_of al hdr t) orc None 0 0).
  Proof.
    intros Hg. exists (set_heap_of al hdr t). split; [by apply good_own|].
    split; [simpl; by rewrite (right_id_L ∅ (∪))|apply map_disjoint_empty_r].
  Qed.
End extra.
