(** * How many elements the insertions of vector construct: proofs *)
From Verif Require Export VecOps VecHist.

Section cost.
  Context {V : Type} (cf : cfg V).
  Notation W := (world (vblock V)).
  Notation MV := (M (vblock V)).
  Implicit Types w : W.

  (** A successful run of [m] constructs at most [n] elements. *)
  Definition spends {A} (m : MV A) (n : nat) : Prop :=
    forall w a w', m w = Done a w' -> w_err w' = None -> w_err w = None /\ w_ctors w' <= w_ctors w + n.
  (** [m] does not end successfully. *)
  Definition dead {A} (m : MV A) : Prop := forall w a w', m w = Done a w' -> w_err w' <> None.

  Lemma spends_le {A} (m : MV A) n n' : spends m n -> n <= n' -> spends m n'.
  Proof. intros Hm Hle w a w' Hr He. destruct (Hm w a w' Hr He). split; [done|lia]. Qed.
  Lemma spends_bind {A B} (m : MV A) (k : A -> MV B) n n' n'' :
    spends m n -> (forall a, spends (k a) n') -> n + n' <= n'' -> spends (bind m k) n''.
  Proof.
    intros Hm Hk Hn w b w'' Hr He. unfold bind in Hr. destruct (m w) as [a w'|] eqn:Em; [|done].
    destruct (Hk a w' b w'' Hr He) as [He' Hc']. destruct (Hm w a w' Em He') as [? ?]. split; [done|lia].
  Qed.
  Lemma spends_bind0 {A B} (m : MV A) (k : A -> MV B) n :
    spends m 0 -> (forall a, spends (k a) n) -> spends (bind m k) n.
  Proof. intros Hm Hk. eapply spends_bind; [done|done|lia]. Qed.
  Lemma spends_ret {A} (a : A) n : spends (ret a) n.
  Proof. intros w b w' [= <- <-] He. split; [done|lia]. Qed.
  Lemma spends_bind_ret {A B} (a : A) (k : A -> MV B) n : spends (k a) n -> spends (bind (ret a) k) n.
  Proof. done. Qed.
  Lemma spends_fail {A} f n : spends (fail f : MV A) n.
  Proof. by intros w b w' Hr. Qed.
  Lemma dead_spends {A} (m : MV A) n : dead m -> spends m n.
  Proof. intros Hd w a w' Hr He. by destruct (Hd w a w' Hr). Qed.
  Lemma dead_bind {A B} (m : MV A) (k : A -> MV B) : (forall a, dead (k a)) -> dead (bind m k).
  Proof.
    intros Hk w b w'' Hr. unfold bind in Hr. destruct (m w) as [a w'|] eqn:Em; [|done]. by eapply Hk.
  Qed.
  Lemma dead_fail {A} f : dead (fail f : MV A).
  Proof. by intros w a w' Hr. Qed.
  Lemma spends_err {A} (m m' : MV A) n n' :
    spends m n' -> spends m' n -> spends (let! e := has_err in if (e : bool) then m else m') n.
  Proof.
    intros Hm Hm' w a w' Hr He. unfold bind, has_err, get_err in Hr. simpl in Hr.
    destruct (w_err w) eqn:Ew; simpl in Hr.
    - exfalso. destruct (Hm w a w' Hr He) as [Hx _]. congruence.
    - rewrite <-Ew at 1. by apply (Hm' w a w').
  Qed.
  Lemma dead_err {A} (m m' : MV A) n :
    spends m n -> dead m' -> dead (let! e := has_err in if (e : bool) then m else m').
  Proof.
    intros Hm Hm' w a w' Hr He. unfold bind, has_err, get_err in Hr. simpl in Hr.
    destruct (w_err w) eqn:Ew; simpl in Hr; [|by apply (Hm' w a w' Hr)].
    destruct (Hm w a w' Hr He) as [Hx _]. congruence.
  Qed.
  Lemma spends_put_err e n : spends (put_err (Some e)) n.
  Proof. intros w a w' [= <- <-] He. done. Qed.
  Lemma spends_get_heap : spends get_heap 0.
  Proof. intros w a w' [= <- <-] He. split; [done|lia]. Qed.
  Lemma spends_put_heap h : spends (put_heap h) 0.
  Proof. intros w a w' [= <- <-] He. split; [done|simpl; lia]. Qed.
  Lemma spends_tick_alloc : spends tick_alloc 0.
  Proof. intros w a w' [= <- <-] He. split; [done|simpl; lia]. Qed.
  Lemma spends_tick_ctor : spends tick_ctor 1.
  Proof. intros w a w' [= <- <-] He. split; [done|simpl; lia]. Qed.
  Lemma spends_next_event : spends next_event 0.
  Proof. intros w a w' Hr He. unfold next_event in Hr. destruct (w_orc w); injection Hr as <- <-; (split; [done|simpl; lia]). Qed.
  Lemma spends_has_err : spends has_err 0.
  Proof. intros w a w' Hr He. unfold has_err, bind, get_err in Hr. simpl in Hr. injection Hr as <- <-. split; [done|lia]. Qed.

  Ltac sp0 :=
    repeat first
      [ apply spends_ret | apply spends_fail | apply spends_put_err | apply spends_get_heap | apply spends_put_heap
      | apply spends_tick_alloc | apply spends_next_event | apply spends_has_err
      | apply spends_bind0; [|intros] | case_match | case_decide ].

  Lemma spends_load a : spends (load a) 0.
  Proof. unfold load. sp0. Qed.
  Lemma spends_store a (c : vblock V) : spends (store a c) 0.
  Proof. unfold store. sp0. Qed.
  Lemma spends_free_cell a : spends (free_cell a) 0.
  Proof. unfold free_cell. sp0. Qed.
  Lemma spends_assert b : spends (assert_ cf b) 0.
  Proof. unfold assert_. sp0. Qed.
  Lemma spends_place p v : spends (place p v) 0.
  Proof. unfold place, load_block. sp0; try apply spends_load; apply spends_store. Qed.
  Lemma spends_read p : spends (read p) 0.
  Proof. unfold read, load_block. sp0; apply spends_load. Qed.
  Lemma spends_overwrite p v : spends (overwrite p v) 0.
  Proof. unfold overwrite, load_block. sp0; try apply spends_load; apply spends_store. Qed.
  Lemma spends_destroy1 p : spends (destroy1 p) 0.
  Proof. unfold destroy1, load_block. sp0; try apply spends_load; apply spends_store. Qed.
  Lemma spends_padd p n : spends (padd p n) 0.
  Proof. unfold padd, load_block. sp0; apply spends_load. Qed.
  Lemma spends_pdec p : spends (pdec p) 0.
  Proof. unfold pdec. sp0. Qed.
  Lemma spends_pdiff p q : spends (pdiff p q) 0.
  Proof. unfold pdiff. sp0. Qed.
  Lemma spends_allocate al n : spends (allocate cf al n) 0.
  Proof.
    unfold allocate, alloc_cell. cbv zeta. case_decide; sp0.
  Qed.
  Lemma spends_deallocate al p n : spends (deallocate al p n) 0.
  Proof. unfold deallocate. sp0; apply spends_free_cell. Qed.
  Lemma spends_destroy p q : spends (destroy p q) 0.
  Proof.
    unfold destroy. generalize (S (poff q)) as fuel. intros fuel. revert p. induction fuel as [|fuel IH]; intros p; cbn [destroy_loop]; [apply spends_fail|].
    case_decide; [apply spends_ret|]. apply spends_bind0; [apply spends_destroy1|]. intros _.
    apply spends_bind0; [apply spends_padd|]. intros p'. apply IH.
  Qed.
  Lemma spends_construct_at p a : spends (construct_at cf p a) 1.
  Proof.
    assert (spends (read_arg a) 0) as Hr.
    { unfold read_arg. case_match; [apply spends_ret|apply spends_read]. }
    unfold construct_at, construct. destruct (c_kind cf); (eapply spends_bind; [apply spends_tick_ctor| |reflexivity]); intros _.
    - apply spends_bind0; [done|]. intros v. apply spends_place.
    - apply spends_bind0; [done|]. intros v. apply spends_bind0; [apply spends_next_event|]. intros []; [apply spends_put_err|apply spends_place].
    - apply spends_bind0; [apply spends_next_event|]. intros ev. apply spends_bind0.
      { destruct ev; [apply spends_put_err|apply spends_place]. }
      intros _. eapply spends_err; [apply (spends_ret _ 0)|]. apply spends_bind0; [done|]. intros v. apply spends_bind0; [apply spends_next_event|].
      intros ev2. apply spends_bind0. { destruct ev2; [apply spends_put_err|apply spends_overwrite]. }
      intros _. eapply spends_err; [apply spends_destroy1|apply spends_ret].
  Qed.

  Lemma spends_copy_loop fuel first last out cur : spends (uninitialised_copy_loop cf fuel first last out cur) (Nat.pred fuel).
  Proof.
    revert first cur. induction fuel as [|fuel IH]; intros first cur; cbn [uninitialised_copy_loop Nat.pred]; [apply spends_fail|].
    case_decide; [apply spends_ret|]. destruct fuel as [|fuel].
    - apply dead_spends. apply dead_bind. intros _. eapply dead_err.
      + apply spends_bind0; [apply spends_destroy|]. intros _. apply (spends_ret _ 0).
      + apply dead_bind. intros. apply dead_bind. intros. apply dead_fail.
    - eapply (spends_bind _ _ 1 fuel); [apply spends_construct_at| |lia]. intros _. eapply spends_err.
      + apply spends_bind0; [apply spends_destroy|]. intros _. apply (spends_ret _ 0).
      + apply spends_bind0; [apply spends_padd|]. intros. apply spends_bind0; [apply spends_padd|]. intros. apply IH.
  Qed.
  Lemma spends_shift_loop fuel b i j : i <= j -> spends (shift_loop cf fuel (Ptr b j) (Ptr b i)) (j - i).
  Proof.
    revert j. induction fuel as [|fuel IH]; intros j Hij; cbn [shift_loop]; [apply spends_fail|].
    case_decide as Hd; [apply spends_ret|]. assert (i <> j) by congruence. destruct j as [|j]; [lia|].
    apply (spends_bind_ret (Ptr b j)).
    eapply (spends_bind _ _ 1 (j - i)); [apply spends_construct_at| |lia]. intros _. eapply spends_err; [apply (spends_ret _ 0)|].
    apply spends_bind0; [apply spends_destroy|]. intros _.
    apply (spends_bind_ret (Ptr b j)). apply IH. lia.
  Qed.
  Lemma spends_do_reserve v n : spends (do_reserve cf v n) (poff (m_finish v)).
  Proof.
    unfold do_reserve. apply spends_bind0; [apply spends_allocate|]. intros p. eapply spends_err; [apply (spends_ret _ 0)|].
    eapply (spends_bind _ _ (poff (m_finish v)) 0); [apply spends_copy_loop| |lia]. intros _. eapply spends_err.
    { apply spends_bind0; [apply spends_deallocate|]. intros _. apply (spends_ret _ 0). }
    apply spends_bind0; [apply spends_pdiff|]. intros. apply spends_bind0; [apply spends_destroy|]. intros.
    apply spends_bind0; [apply spends_pdiff|]. intros. apply spends_bind0; [apply spends_deallocate|]. intros.
    apply spends_bind0; [apply spends_padd|]. intros. apply spends_bind0; [apply spends_padd|]. intros.
    apply spends_bind0; [apply spends_deallocate|]. intros. apply spends_ret.
  Qed.
  Lemma spends_reserve v n : spends (vec_reserve cf v n) (poff (m_finish v)).
  Proof.
    unfold vec_reserve. apply spends_bind0; [apply spends_pdiff|]. intros. case_decide; [apply spends_ret|].
    case_decide; [|apply spends_do_reserve]. apply spends_bind0; [apply spends_put_err|]. intros. apply spends_ret.
  Qed.
  Lemma spends_grow v n : spends (grow cf v n) (poff (m_finish v)).
  Proof.
    unfold grow. apply spends_bind0; [apply spends_pdiff|]. intros. apply spends_bind0; [apply spends_assert|]. intros.
    apply spends_reserve.
  Qed.
  Lemma runs_spend {A} (m : MV A) n w (Q : A -> W -> Prop) :
    runs m w Q -> spends m n -> runs m w (fun a w' => Q a w' /\ (w_err w' = None -> w_ctors w' <= w_ctors w + n)).
  Proof.
    intros (a & w' & Hr & HQ) Hm. exists a, w'. split; [done|]. split; [done|]. intros He. by apply (Hm w a w' Hr He).
  Qed.
  Lemma runs_spend' {A} (m : MV A) w (Q R : A -> W -> Prop) :
    runs m w Q -> runs m w R -> runs m w (fun a w' => Q a w' /\ R a w').
  Proof.
    intros (a & w' & Hr & HQ) (a2 & w2 & Hr2 & HR). rewrite Hr in Hr2. injection Hr2 as <- <-. by exists a, w'.
  Qed.

  (** the part of insert_value after the growth *)
  Definition insert_tail (v : vec_obj) (offset : nat) (a : arg V) : MV (ptr * vec_obj) :=
    let! cap := vec_capacity v in
    let! n := vec_size v in
    do! assert_ cf (bool_decide (n < cap)) in
    let last := m_finish v in
    let! first := padd (m_start v) offset in
    let! ok := shift_loop cf (S (poff last)) last first in
    if negb ok then ret (vec_end v, v) else
    do! construct_at cf first a in
    let! e := has_err in
    if (e : bool) then ret (vec_end v, v) else
    let! fin := padd (m_finish v) 1 in
    ret (first, Vec (m_allocator v) (m_start v) fin (m_end_of_storage v)).
  Lemma spends_tail v b n i a : m_start v = Ptr b 0 -> m_finish v = Ptr b n -> i <= n -> spends (insert_tail v i a) (n - i + 1).
  Proof.
    intros Hs Hf Hi. unfold insert_tail. apply spends_bind0; [apply spends_pdiff|]. intros.
    apply spends_bind0; [apply spends_pdiff|]. intros. apply spends_bind0; [apply spends_assert|]. intros. cbv zeta.
    rewrite Hs, Hf. intros w r w' Hr He. unfold bind at 1 in Hr. destruct (padd (Ptr b 0) i w) as [p w1|] eqn:Ep; [|done].
    assert (p = Ptr b i) as ->.
    { unfold padd, load_block, load, bind, get_heap in Ep. destruct (w_heap w !! b); [|done]. simpl in Ep. case_decide; [|done]. by injection Ep. }
    assert (w_err w1 = None -> w_err w = None /\ w_ctors w1 <= w_ctors w + 0) as H1 by (by apply (spends_padd (Ptr b 0) i w (Ptr b i) w1)).
    enough (w_err w1 = None /\ w_ctors w' <= w_ctors w1 + (n - i + 1)) as [H2 H3].
    { destruct (H1 H2). split; [done|lia]. }
    clear H1 Ep. revert w1 r w' Hr He.
    match goal with |- forall w a w', ?m w = _ -> _ => change (spends m (n - i + 1)) end.
    eapply (spends_bind _ _ (n - i) 1); [by apply spends_shift_loop| |lia]. intros ok. case_match; [apply spends_ret|].
    eapply (spends_bind _ _ 1 0); [apply spends_construct_at| |lia]. intros _. eapply spends_err; [apply (spends_ret _ 0)|].
    apply spends_bind0; [apply spends_padd|]. intros. apply spends_ret.
  Qed.
  Lemma insert_cost v l cap hv hf i a w r w' :
    cfg_ok cf -> vec_owns cf v l cap hv -> heap_is w hv hf -> w_err w = None -> i <= length l ->
    insert_value cf v (vec_pos v i) a w = Done r w' -> w_err w' = None ->
    w_ctors w' <= w_ctors w + (length l - i + 1) + (if decide (cap = length l) then length l else 0).
  Proof.
    intros Hcf Ho Hh He Hi Hr He'.
    pose proof (owns_cap_ok _ _ _ _ _ Hcf Ho) as Hco. pose proof (owns_le _ _ _ _ _ Ho) as Hle.
    assert (poff (m_finish v) = length l) as Hpf.
    { by destruct Ho as [(_ & -> & _ & -> & _)|(b & _ & -> & _)]. }
    assert (Hpos : pdiff (vec_pos v i) (m_start v) = @ret (vblock V) _ i).
    { unfold vec_pos. destruct Ho as [(Hs & Hf & Hen & -> & -> & ->)|(bs & Hs & Hf & Hen & _ & _ & ->)]; rewrite Hs; simpl.
      - simpl in Hi. by replace i with 0 by lia.
      - unfold pdiff. rewrite decide_True by (split; [done|lia]). by rewrite Nat.sub_0_r. }
    assert (Hcap : @vec_capacity V v w = Done cap w).
    { destruct (owns_capacity cf v l cap hv w (fun c w' => c = cap /\ w' = w) Ho) as (? & ? & ? & -> & ->); done. }
    assert (Hsize : @vec_size V v w = Done (length l) w).
    { destruct (owns_size cf v l cap hv w (fun c w' => c = length l /\ w' = w) Ho) as (? & ? & ? & -> & ->); done. }
    unfold insert_value in Hr.
    assert (forall b (k : MV (ptr * vec_obj)), (do! assert_ cf b in k) w = Done r w' -> k w = Done r w') as Hass.
    { intros b k Hk. unfold bind in Hk. destruct (assert_ cf b w) as [[] w1|] eqn:Ea; [|done].
      unfold assert_ in Ea. by destruct (c_dbg cf && negb b); [|injection Ea as <-]. }
    apply Hass in Hr. apply Hass in Hr. rewrite Hpos in Hr. unfold bind at 1, ret at 1 in Hr.
    unfold bind at 1 in Hr. rewrite Hcap in Hr. unfold bind at 1 in Hr. rewrite Hsize in Hr.
    case_decide as Hfull.
    - assert (Hsz : sz (cap + 1) = S cap).
      { rewrite sz_fits; [lia|]. eapply bytes_fits; [done|]. replace (cap + 1) with (S cap) by lia. by apply cap_S_bytes. }
      rewrite Hsz in Hr.
      assert (runs (grow cf v (S cap)) w (fun v1 w1 =>
        (w_err w1 <> None \/ exists b, m_start v1 = Ptr b 0 /\ m_finish v1 = Ptr b (length l)) /\
        (w_err w1 = None -> w_ctors w1 <= w_ctors w + length l))) as (v1 & w1 & Hg & Hv1 & Hc1).
      { rewrite <-Hpf. apply runs_spend; [|apply spends_grow]. rewrite Hpf. eapply runs_grow; try done.
        - by apply cap_S_bytes.
        - left; lia.
        - intros v1 b hv1 w1 Hs1 _ _ Ho1 _ _ _. right. destruct Ho1 as [(Hs & _)|(b1 & Hs & Hf & _)]; [congruence|]. eauto.
        - intros w1 e _ -> _. by left. }
      unfold bind at 1 in Hr. unfold bind at 1 in Hr. rewrite Hg in Hr.
      assert ((let! e := has_err in if (e : bool) then ret (vec_end v1, v1) else insert_tail v1 i a) w1 = Done r w') as Hr' by exact Hr.
      clear Hr. rename Hr' into Hr. unfold bind at 1, has_err in Hr. unfold bind, get_err, ret in Hr.
      destruct (w_err w1) eqn:Ew1; simpl in Hr.
      { injection Hr as <- <-. congruence. }
      destruct Hv1 as [?|(b & Hs1 & Hf1)]; [done|].
      change (insert_tail v1 i a w1 = Done r w') in Hr.
      destruct (spends_tail v1 b (length l) i a Hs1 Hf1 Hi w1 r w' Hr He'). specialize (Hc1 eq_refl). lia.
    - unfold bind at 1, ret at 1 in Hr. cbv iota beta in Hr. change (insert_tail v i a w = Done r w') in Hr.
      destruct Ho as [(_ & _ & _ & -> & -> & _)|(b & Hs & Hf & _)]; [done|].
      destruct (spends_tail v b (length l) i a Hs Hf Hi w r w' Hr He'). lia.
  Qed.
End cost.
