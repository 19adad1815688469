(** * Inserting a range of set iterators into a set

    [insert_unique_range] (RbModel.v) takes the values of the range as they are
    when the call starts.  Here the range is read through iterators of a set while
    elements are inserted, so that the range may lie in the set itself. *)
From Verif Require Export RbExtra RbHistSpec RbInsert.
From Verif Require RbHist.

Section model.
  Context {V : Type} (cf : cfg V) (comp : V -> V -> bool).
  Notation MT := (M (tcell V)).

  (** rbt.hpp:2116-2129 with iterators of a tree *)
  Fixpoint insert_nodes_loop (fuel : nat) (o : tset) (first last : addr) : MT unit :=
    match fuel with
    | 0 => fail FFuel
    | S fuel =>
        if decide (first = last) then ret tt else
        do! insert_unique_at cf comp o (t_end o) (TARef first) in
        let! e := has_err in
        if (e : bool) then ret tt else
        let! first := rb_increment first in
        insert_nodes_loop fuel o first last
    end.
  Definition insert_unique_nodes (o : tset) (first last : addr) : MT unit :=
    let! fuel := cell_fuel in
    insert_nodes_loop fuel o first last.
End model.

Section proofs.
  Context {V : Type} (cf : cfg V) (comp : V -> V -> bool).
  Notation W := (world (tcell V)).
  Implicit Types hv hf : gmap addr (tcell V).

  Lemma set_beside comp2 o o2 xs ys hv2 hf (w : W) :
    set_is comp o xs (hv2 ∪ hf) w -> set_own comp2 (t_alloc o2) (t_hdr o2) ys hv2 -> hv2 ##ₘ hf ->
    exists hf2, set_is comp2 o2 ys hf2 w.
  Proof.
    intros (hv & _ & Hw & Hd) Ho2 Hd2. apply map_disjoint_union_r in Hd as [Hd1 Hd3].
    exists (hv ∪ hf), hv2. split; [done|]. split.
    - by rewrite Hw, !(assoc_L (∪)), (map_union_comm hv hv2).
    - by apply map_disjoint_union_r.
  Qed.

  Lemma tpos_diff comp2 o2 ys hf2 t2 (w : W) i j : sin comp2 o2 ys (w_heap w) hf2 t2 -> i < j <= length ys ->
    tpos (t_hdr o2) ys i <> tpos (t_hdr o2) ys j.
  Proof.
    intros (Ht & He & _) Hij Heq. pose proof (tin_nodup _ _ _ _ _ _ _ _ Ht) as Hn. rewrite He in Hn.
    apply (RbQuery.tpos_inj o2 ys i j Hn) in Heq; lia.
  Qed.

  (** As long as the set that is read stays as it is, the values read are those
      it holds. *)
  Lemma insert_nodes_same comp2 o o2 xs ys hv2 hf (w : W) fuel i n (Q : unit -> W -> Prop) :
    swo comp -> set_is comp o xs (hv2 ∪ hf) w -> set_own comp2 (t_alloc o2) (t_hdr o2) ys hv2 -> hv2 ##ₘ hf ->
    w_err w = None -> i + n <= length ys -> n < fuel ->
    runs (insert_unique_range cf comp o (TARef <$> (take n (drop i ys)).*1)) w Q ->
    runs (insert_nodes_loop cf comp fuel o (tpos (t_hdr o2) ys i) (tpos (t_hdr o2) ys (i + n))) w Q.
  Proof.
    intros Hswo Hs Ho2 Hd He. revert xs w fuel i Hs He. induction n as [|n IH]; intros xs w fuel i Hs He Hi Hf Hr.
    { destruct fuel as [|fuel]; [lia|]. simpl. rewrite Nat.add_0_r, decide_True by done. exact Hr. }
    destruct fuel as [|fuel]; [lia|]. destruct (lookup_lt_is_Some_2 ys i) as [[a v] Ea]; [lia|].
    destruct (set_beside _ _ _ _ _ _ _ _ Hs Ho2 Hd) as (hf2 & Hs2). apply set_is_sin in Hs2 as [t2 Hs2].
    simpl. rewrite decide_False by (eapply tpos_diff; [exact Hs2|lia]).
    rewrite (tpos_some _ _ _ _ _ Ea). rewrite (drop_S _ _ _ Ea) in Hr. simpl in Hr.
    destruct (RbHist.sin_cell comp2 _ _ _ _ _ _ _ _ Hs2 Ea) as (c & al & Hc & Hb).
    assert (rd (w_heap w) (TARef a) v) as Hx by (by exists c, al).
    pose proof Hs as [t Hs1]%set_is_sin.
    assert (runs (insert_unique_at cf comp o (t_end o) (TARef a)) w (fun _ w' => exists xs', set_is comp o xs' (hv2 ∪ hf) w')) as (p & w1 & Hw1 & xs1 & Hs').
    { assert (t_end o = tpos (t_hdr o) xs (length xs)) as -> by (by rewrite tpos_end by lia).
      eapply insert_at_spec; [done|exact Hs1|exact Hx|done|..].
      - intros b pre post h' t' orc Hxs _ Hs' _. exists (pre ++ (b, v) :: post). apply set_is_sin. by exists t'.
      - intros. by exists xs.
      - intros w' e Hw' _ _ _ _. exists xs. destruct Hs as (hv & Ho & Hh). exists hv. split; [done|]. unfold heap_is. by rewrite Hw'. }
    destruct Hr as (q & w2 & Hr & HQ). unfold bind in Hr. rewrite Hw1 in Hr.
    unfold runs, bind. rewrite Hw1. unfold has_err, get_err in *. unfold bind, ret in *.
    destruct (w_err w1) as [e|] eqn:He1; [by exists q, w2|].
    destruct (set_beside _ _ _ _ _ _ _ _ Hs' Ho2 Hd) as (hf3 & Hs3). apply set_is_sin in Hs3 as [t3 Hs3].
    assert (runs (rb_increment a) w1 (fun r w' => r = tpos (t_hdr o2) ys (S i) /\ w' = w1)) as (r & w' & -> & -> & ->).
    { rewrite <-(tpos_some (t_hdr o2) _ _ _ _ Ea). eapply (RbSet.runs_inc comp2); [exact Hs3|lia|done]. }
    replace (i + S n) with (S i + n) by lia. eapply (IH xs1 w1 fuel (S i)); [done|done|lia|lia|]. by exists q, w2.
  Qed.

  (** The elements of the set itself are all there. *)
  Lemma insert_own_nodes o xs hf (w : W) fuel i n :
    swo comp -> set_is comp o xs hf w -> w_err w = None -> i + n <= length xs -> n < fuel ->
    insert_nodes_loop cf comp fuel o (tpos (t_hdr o) xs i) (tpos (t_hdr o) xs (i + n)) w = Done tt w.
  Proof.
    intros Hswo Hs He. revert fuel i. induction n as [|n IH]; intros fuel i Hi Hf.
    { destruct fuel as [|fuel]; [lia|]. simpl. by rewrite Nat.add_0_r, decide_True by done. }
    destruct fuel as [|fuel]; [lia|]. destruct (lookup_lt_is_Some_2 xs i) as [[a v] Ea]; [lia|].
    pose proof Hs as [t Hs1]%set_is_sin. simpl. rewrite decide_False by (eapply tpos_diff; [exact Hs1|lia]).
    destruct (RbHist.sin_cell comp _ _ _ _ _ _ _ _ Hs1 Ea) as (c & al & Hc & Hb).
    assert (rd (w_heap w) (TARef a) v) as Hx by (by exists c, al). rewrite (tpos_some _ _ _ _ _ Ea).
    assert (comp v v = false) as Hvv by apply Hswo.
    assert (runs (insert_unique_at cf comp o (t_end o) (TARef a)) w (fun _ w' => w' = w)) as (p & ? & Hw1 & ->).
    { assert (t_end o = tpos (t_hdr o) xs (length xs)) as -> by (by rewrite tpos_end by lia).
      eapply insert_at_spec; [done|exact Hs1|exact Hx|done|..].
      - intros b pre post h' t' orc Hxs _ (_ & _ & _ & Hasc) _. exfalso.
        apply (RbHist.asc_absent comp pre b v post Hasc v); [|by split].
        rewrite <-Hxs. apply elem_of_list_fmap. exists (a, v). split; [done|by eapply elem_of_list_lookup_2].
      - done.
      - intros w' e _ _ _ Hno _. destruct (Hno (a, v)) as [H|H]; [by eapply elem_of_list_lookup_2|simpl in H; congruence..]. }
    unfold bind. rewrite Hw1. unfold has_err, get_err, bind, ret. rewrite He.
    assert (runs (rb_increment a) w (fun r w' => r = tpos (t_hdr o) xs (S i) /\ w' = w)) as (r & w' & -> & -> & ->).
    { rewrite <-(tpos_some (t_hdr o) _ _ _ _ Ea). eapply (RbSet.runs_inc comp); [exact Hs1|lia|done]. }
    replace (i + S n) with (S i + n) by lia. apply IH; lia.
  Qed.
End proofs.
