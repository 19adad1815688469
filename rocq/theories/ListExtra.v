(** * Positions, whole programs, and concrete lists for examples *)
From Verif Require Export ListHist.

Section extra.
  Context {V : Type} (cf : cfg V) (comp : V -> V -> bool).
  Notation H := (gmap addr (lcell V)).
  Notation W := (world (lcell V)).
  Notation E := (addr * V)%type.
  Implicit Types hv hf : H.
  Implicit Types w : W.

  Lemma lpos_hdx hdr (xs : list E) i : lpos hdr xs i = hdx (drop i xs).*1 hdr.
  Proof.
    unfold lpos. rewrite list_lookup_fmap. destruct (xs !! i) as [[a v]|] eqn:Ei; simpl.
    - by rewrite (drop_at _ _ _ Ei).
    - apply lookup_ge_None in Ei. by rewrite drop_ge.
  Qed.
  Lemma lpos_app hdr (l r : list E) : lpos hdr (l ++ r) (length l) = hdx r.*1 hdr.
  Proof. by rewrite lpos_hdx, drop_app. Qed.

  (** A program that creates [k] lists and runs a history on them. *)
  Definition list_program (k : nat) (ops : list (lop V)) : M (lcell V) (list lst_obj * list (option error)) :=
    let! os := new_lists cf k in
    let! es := exec_lops cf comp ops os in
    ret (os, es).

  Lemma zip_nil_r_own hv hf w : heap_is w hv hf -> heap_is w ∅ (w_heap w).
  Proof. intros _. split; [by rewrite (left_id_L ∅ (∪))|apply map_disjoint_empty_l]. Qed.
  Lemma own_empty al : lists_own al [] (∅ : H).
  Proof.
    split_and!; [constructor| |intros ?? Hin; by apply elem_of_nil in Hin].
    intros a. rewrite lookup_empty. split; [by intros [??]|]. intros Hin. by apply elem_of_nil in Hin.
  Qed.
  Lemma heap_nothing w : heap_is w ∅ (w_heap w).
  Proof. split; [by rewrite (left_id_L ∅ (∪))|apply map_disjoint_empty_l]. Qed.
  Lemma heap_all w : heap_is w (w_heap w) ∅.
  Proof. split; [by rewrite (right_id_L ∅ (∪))|apply map_disjoint_empty_r]. Qed.

  Lemma runs_new_row k w hv hf (Q : _ -> W -> Prop) :
    heap_is w hv hf -> lists_own (c_dflt cf) [] hv ->
    (forall hds hv', length hds = k -> row cf hds (replicate k []) hv' ->
       heap_is (set_heap (hv' ∪ hf) w) hv' hf -> Q (Lst (c_dflt cf) <$> hds) (set_heap (hv' ∪ hf) w)) ->
    runs (new_lists cf k) w Q.
  Proof.
    intros Hh Ho HQ. eapply runs_new_lists; [done..|]. intros hs hv' Hl Ho' Hh'. apply HQ; [done| |done].
    split; [by rewrite replicate_length|]. by rewrite app_nil_r in Ho'.
  Qed.
  Lemma runs_destroy_row hds xss w hv hf (Q : _ -> W -> Prop) :
    row cf hds xss hv -> heap_is w hv hf -> (forall w', w_heap w' = hf -> Q tt w') ->
    runs (destroy_lists (Lst (c_dflt cf) <$> hds)) w Q.
  Proof.
    intros [Hl Ho] Hh HQ. revert xss w hv Hl Ho Hh. induction hds as [|h hds IH]; intros [|xs xss] w hv Hl Ho Hh; try done.
    - simpl. apply runs_ret. apply HQ. destruct Hh as [Hw _]. rewrite Hw.
      assert (hv = ∅) as ->; [|by rewrite (left_id_L ∅ (∪))].
      apply map_empty. intros a. destruct (hv !! a) eqn:Ea; [|done]. exfalso.
      destruct Ho as (_ & Hd & _). assert (Hin : a ∈ list_addrs ([] : list (addr * list E))) by (apply Hd; eauto).
      by apply elem_of_nil in Hin.
    - simpl. rbind. eapply (runs_lst_destroy w (c_dflt cf) h xs (zip hds xss)); [done|exact Ho|by left|].
      intros hv1 Ho1 Hh1. simpl in Hl. eapply (IH xss); [lia|exact Ho1|exact Hh1].
  Qed.
  Lemma in_addrs_vals (ls : list (addr * list E)) a v : (a, v) ∈ concat ls.*2 ->
    exists h l r R, ls ≡ₚ (h, l ++ (a, v) :: r) :: R.
  Proof.
    induction ls as [|[h xs] ls IH]; simpl; [by intros Hin%elem_of_nil|].
    intros [Hin|Hin]%elem_of_app.
    - apply elem_of_list_split in Hin as (l & r & ->). exists h, l, r, ls. done.
    - destruct (IH Hin) as (h' & l & r & R & HR). exists h', l, r, ((h, xs) :: R). rewrite HR. apply perm_swap.
  Qed.
  Lemma own_deref al ls hv hf w a v :
    lists_own al ls hv -> heap_is w hv hf -> (a, v) ∈ concat ls.*2 -> it_deref cf a w = Done v w.
  Proof.
    intros Ho Hh Hin. destruct (in_addrs_vals _ _ _ Hin) as (h & l & r & R & HR).
    apply runs_state. intros Q HQ. eapply runs_deref; [done|eapply own_perm; [|exact Ho]; exact HR|done].
  Qed.
  Lemma zip_contents {A} (hds : list A) (xss : list (list E)) : length hds = length xss -> (zip hds xss).*2 = xss.
  Proof.
    revert xss. induction hds as [|h hds IH]; intros [|x xss] Hl; simpl in *; try done. f_equal. apply IH. lia.
  Qed.
End extra.

(** ** Deciding ownership of concrete heaps *)
Section check.
  Context {V : Type} `{EqDecision V}.
  Notation H := (gmap addr (lcell V)).

  Fixpoint chain_b (h : H) (a : addr) (l : list addr) (b : addr) : bool :=
    match l with
    | [] => bool_decide (link h a b)
    | x :: l => bool_decide (link h a x) && chain_b h x l b
    end.
  Lemma chain_b_sound h a l b : chain_b h a l b = true -> chain h a l b.
  Proof.
    revert a. induction l as [|x l IH]; intros a; simpl.
    - by intros ?%bool_decide_eq_true.
    - intros [H1%bool_decide_eq_true H2]%andb_true_iff. split; [done|by apply IH].
  Qed.

  Definition own_b (al : alloc_id) (ls : list (addr * list (addr * V))) (h : H) : bool :=
    bool_decide (NoDup (list_addrs ls)) &&
    bool_decide (dom h = list_to_set (list_addrs ls) :> gset addr) &&
    forallb (fun l => chain_b h l.1 l.2.*1 l.1 && bool_decide (bd h l.1 = Some LHead) &&
      forallb (fun p => bool_decide (bd h p.1 = Some (LNode al (Some p.2)))) l.2) ls.
  Lemma own_b_sound al ls h : own_b al ls h = true -> lists_own al ls h.
  Proof.
    unfold own_b. intros [[H1%bool_decide_eq_true H2%bool_decide_eq_true]%andb_true_iff H3]%andb_true_iff.
    split; [done|]. split.
    - intros a. by rewrite <-elem_of_dom, H2, elem_of_list_to_set.
    - intros hdr xs Hin. rewrite forallb_forall in H3. specialize (H3 (hdr, xs) (proj1 (elem_of_list_In _ _) Hin)).
      simpl in H3. apply andb_true_iff in H3 as [[Hc Hb%bool_decide_eq_true]%andb_true_iff Hp].
      split_and!; [by apply chain_b_sound|done|]. intros a v Ha. rewrite forallb_forall in Hp.
      specialize (Hp (a, v) (proj1 (elem_of_list_In _ _) Ha)). by apply bool_decide_eq_true in Hp.
  Qed.

  (** The cells of a list. *)
  Definition ring_cells (al : alloc_id) (hdr : addr) (xs : list (addr * V)) : list (addr * lcell V) :=
    let n := length xs in
    let at_ i := lpos hdr xs i in
    (hdr, LCell (Some (at_ 0)) (Some (at_ (n - 1))) LHead) ::
    imap (fun i p => (p.1, LCell (Some (at_ (S i))) (Some (if decide (i = 0) then hdr else at_ (i - 1))) (LNode al (Some p.2)))) xs.
  Definition lists_heap (al : alloc_id) (ls : list (addr * list (addr * V))) : H :=
    list_to_map (concat (map (fun l => ring_cells al l.1 l.2) ls)).
End check.
