(** * Tree programs under different limits on loops

    [upto m m']: [m] stops because a loop exceeds its limit, or it does the
    same as [m'].  Every tree program under a tighter limit is [upto] the same
    program under a wider one. *)
From Verif Require Export RbHistSpec RbMultiModel RbMultiHistSpec RbCmpModel RbVerModel.

Definition upto {C A} (m m' : M C A) : Prop := forall w, m w = Fault FFuel \/ m w = m' w.
Definition tighter (L1 L2 : limit) : Prop := forall n, @rounds L1 n <= @rounds L2 n.

Lemma upto_refl {C A} (m : M C A) : upto m m.
Proof. intros w. by right. Qed.
Lemma upto_fuel0 {C A} (m : M C A) : upto (fail FFuel) m.
Proof. intros w. by left. Qed.
Lemma upto_bind {C A B} (m m' : M C A) (k k' : A -> M C B) :
  upto m m' -> (forall a, upto (k a) (k' a)) -> upto (bind m k) (bind m' k').
Proof.
  intros Hm Hk w. unfold bind. destruct (Hm w) as [->| ->]; [by left|]. destruct (m' w) as [a w'|f]; [apply Hk|by right].
Qed.
Lemma upto_tree_fuel {V B} (L1 L2 : limit) (k k' : nat -> M (tcell V) B) :
  tighter L1 L2 -> (forall n1 n2, n1 <= n2 -> upto (k n1) (k' n2)) ->
  upto (bind (@tree_fuel V L1) k) (bind (@tree_fuel V L2) k').
Proof.
  intros HL Hk w. apply (Hk (@rounds L1 (size (w_heap w))) (@rounds L2 (size (w_heap w))) (HL _) w).
Qed.
Lemma upto_done {C A} (m m' : M C A) w a w' : upto m m' -> m w = Done a w' -> m' w = Done a w'.
Proof. intros Hm Hr. destruct (Hm w) as [He|He]; congruence. Qed.

Create HintDb updb.
Ltac up_step :=
  lazymatch goal with
  | |- upto ?m ?m => apply upto_refl
  | |- upto (fail FFuel) _ => apply upto_fuel0
  | |- upto (bind tree_fuel _) (bind tree_fuel _) => apply upto_tree_fuel; [assumption|intros ? ? ?]
  | |- upto (bind _ _) (bind _ _) => apply upto_bind; [|intros ?]
  | |- upto (match ?x with _ => _ end) _ => destruct x
  | |- upto (let _ := _ in _) _ => cbv zeta
  | |- _ => solve [eauto with updb]
  end.
Ltac up := repeat up_step.
Ltac upr IH := repeat (first [solve [apply IH; eauto] | up_step]).

Lemma up_minimum_loop : forall T0 n1 n2 x1, n1 <= n2 -> upto (@minimum_loop T0 n1 x1) (@minimum_loop T0 n2 x1).
Proof. intros T0 n1. induction n1 as [|n1 IH]; intros n2 x1 Hn; [apply upto_fuel0|]. destruct n2 as [|n2]; [lia|]. apply le_S_n in Hn. cbn [minimum_loop]. upr IH. Qed.
#[global] Hint Resolve up_minimum_loop : updb.
Lemma up_s_minimum (L1 L2 : limit) (HL : tighter L1 L2) : forall T0 x1 x2, upto (@s_minimum T0 L1 x1 x2) (@s_minimum T0 L2 x1 x2).
Proof. intros. unfold s_minimum. up. Qed.
#[global] Hint Resolve up_s_minimum : updb.
Lemma up_maximum_loop : forall T0 n1 n2 x1, n1 <= n2 -> upto (@maximum_loop T0 n1 x1) (@maximum_loop T0 n2 x1).
Proof. intros T0 n1. induction n1 as [|n1 IH]; intros n2 x1 Hn; [apply upto_fuel0|]. destruct n2 as [|n2]; [lia|]. apply le_S_n in Hn. cbn [maximum_loop]. upr IH. Qed.
#[global] Hint Resolve up_maximum_loop : updb.
Lemma up_s_maximum (L1 L2 : limit) (HL : tighter L1 L2) : forall T0 x1 x2, upto (@s_maximum T0 L1 x1 x2) (@s_maximum T0 L2 x1 x2).
Proof. intros. unfold s_maximum. up. Qed.
#[global] Hint Resolve up_s_maximum : updb.
Lemma up_inc_loop : forall T0 n1 n2 x1 x2, n1 <= n2 -> upto (@inc_loop T0 n1 x1 x2) (@inc_loop T0 n2 x1 x2).
Proof. intros T0 n1. induction n1 as [|n1 IH]; intros n2 x1 x2 Hn; [apply upto_fuel0|]. destruct n2 as [|n2]; [lia|]. apply le_S_n in Hn. cbn [inc_loop]. upr IH. Qed.
#[global] Hint Resolve up_inc_loop : updb.
Lemma up_rb_increment (L1 L2 : limit) (HL : tighter L1 L2) : forall T0 x1, upto (@rb_increment T0 L1 x1) (@rb_increment T0 L2 x1).
Proof. intros. unfold rb_increment. up. Qed.
#[global] Hint Resolve up_rb_increment : updb.
Lemma up_dec_loop : forall T0 n1 n2 x1 x2, n1 <= n2 -> upto (@dec_loop T0 n1 x1 x2) (@dec_loop T0 n2 x1 x2).
Proof. intros T0 n1. induction n1 as [|n1 IH]; intros n2 x1 x2 Hn; [apply upto_fuel0|]. destruct n2 as [|n2]; [lia|]. apply le_S_n in Hn. cbn [dec_loop]. upr IH. Qed.
#[global] Hint Resolve up_dec_loop : updb.
Lemma up_rb_decrement (L1 L2 : limit) (HL : tighter L1 L2) : forall T0 x1, upto (@rb_decrement T0 L1 x1) (@rb_decrement T0 L2 x1).
Proof. intros. unfold rb_decrement. up. Qed.
#[global] Hint Resolve up_rb_decrement : updb.
Lemma up_ins_loop : forall T0 n1 n2 x1 x2, n1 <= n2 -> upto (@ins_loop T0 n1 x1 x2) (@ins_loop T0 n2 x1 x2).
Proof. intros T0 n1. induction n1 as [|n1 IH]; intros n2 x1 x2 Hn; [apply upto_fuel0|]. destruct n2 as [|n2]; [lia|]. apply le_S_n in Hn. cbn [ins_loop]. upr IH. Qed.
#[global] Hint Resolve up_ins_loop : updb.
Lemma up_insert_and_rebalance (L1 L2 : limit) (HL : tighter L1 L2) : forall T0 x1 x2 x3 x4, upto (@insert_and_rebalance T0 L1 x1 x2 x3 x4) (@insert_and_rebalance T0 L2 x1 x2 x3 x4).
Proof. intros. unfold insert_and_rebalance. up. Qed.
#[global] Hint Resolve up_insert_and_rebalance : updb.
Lemma up_erase_unlink (L1 L2 : limit) (HL : tighter L1 L2) : forall T0 x1 x2 x3, upto (@erase_unlink T0 L1 x1 x2 x3) (@erase_unlink T0 L2 x1 x2 x3).
Proof. intros. unfold erase_unlink. up. Qed.
#[global] Hint Resolve up_erase_unlink : updb.
Lemma up_erase_loop : forall T0 n1 n2 x1 x2 x3, n1 <= n2 -> upto (@erase_loop T0 n1 x1 x2 x3) (@erase_loop T0 n2 x1 x2 x3).
Proof. intros T0 n1. induction n1 as [|n1 IH]; intros n2 x1 x2 x3 Hn; [apply upto_fuel0|]. destruct n2 as [|n2]; [lia|]. apply le_S_n in Hn. cbn [erase_loop]. upr IH. Qed.
#[global] Hint Resolve up_erase_loop : updb.
Lemma up_rebalance_for_erase (L1 L2 : limit) (HL : tighter L1 L2) : forall T0 x1 x2 x3, upto (@rebalance_for_erase T0 L1 x1 x2 x3) (@rebalance_for_erase T0 L2 x1 x2 x3).
Proof. intros. unfold rebalance_for_erase. up. Qed.
#[global] Hint Resolve up_rebalance_for_erase : updb.
Lemma up_erase_sub : forall T0 n1 n2 x1 x2, n1 <= n2 -> upto (@erase_sub T0 n1 x1 x2) (@erase_sub T0 n2 x1 x2).
Proof. intros T0 n1. induction n1 as [|n1 IH]; intros n2 x1 x2 Hn; [apply upto_fuel0|]. destruct n2 as [|n2]; [lia|]. apply le_S_n in Hn. cbn [erase_sub]. upr IH. Qed.
#[global] Hint Resolve up_erase_sub : updb.
Lemma up_m_erase (L1 L2 : limit) (HL : tighter L1 L2) : forall T0 x1 x2, upto (@m_erase T0 L1 x1 x2) (@m_erase T0 L2 x1 x2).
Proof. intros. unfold m_erase. up. Qed.
#[global] Hint Resolve up_m_erase : updb.
Lemma up_t_clear (L1 L2 : limit) (HL : tighter L1 L2) : forall T0 x1, upto (@t_clear T0 L1 x1) (@t_clear T0 L2 x1).
Proof. intros. unfold t_clear. up. Qed.
#[global] Hint Resolve up_t_clear : updb.
Lemma up_t_destroy (L1 L2 : limit) (HL : tighter L1 L2) : forall T0 x1, upto (@t_destroy T0 L1 x1) (@t_destroy T0 L2 x1).
Proof. intros. unfold t_destroy. up. Qed.
#[global] Hint Resolve up_t_destroy : updb.
Lemma up_lower_loop : forall T0 n1 n2 x0 x2 x3 x4, n1 <= n2 -> upto (@lower_loop T0 x0 n1 x2 x3 x4) (@lower_loop T0 x0 n2 x2 x3 x4).
Proof. intros T0 n1. induction n1 as [|n1 IH]; intros n2 x0 x2 x3 x4 Hn; [apply upto_fuel0|]. destruct n2 as [|n2]; [lia|]. apply le_S_n in Hn. cbn [lower_loop]. upr IH. Qed.
#[global] Hint Resolve up_lower_loop : updb.
Lemma up_m_lower_bound (L1 L2 : limit) (HL : tighter L1 L2) : forall T0 x1 x2 x3 x4, upto (@m_lower_bound T0 L1 x1 x2 x3 x4) (@m_lower_bound T0 L2 x1 x2 x3 x4).
Proof. intros. unfold m_lower_bound. up. Qed.
#[global] Hint Resolve up_m_lower_bound : updb.
Lemma up_lower_bound (L1 L2 : limit) (HL : tighter L1 L2) : forall T0 x1 x2 x3, upto (@lower_bound T0 L1 x1 x2 x3) (@lower_bound T0 L2 x1 x2 x3).
Proof. intros. unfold lower_bound. up. Qed.
#[global] Hint Resolve up_lower_bound : updb.
Lemma up_upper_loop : forall T0 n1 n2 x0 x2 x3 x4, n1 <= n2 -> upto (@upper_loop T0 x0 n1 x2 x3 x4) (@upper_loop T0 x0 n2 x2 x3 x4).
Proof. intros T0 n1. induction n1 as [|n1 IH]; intros n2 x0 x2 x3 x4 Hn; [apply upto_fuel0|]. destruct n2 as [|n2]; [lia|]. apply le_S_n in Hn. cbn [upper_loop]. upr IH. Qed.
#[global] Hint Resolve up_upper_loop : updb.
Lemma up_m_upper_bound (L1 L2 : limit) (HL : tighter L1 L2) : forall T0 x1 x2 x3 x4, upto (@m_upper_bound T0 L1 x1 x2 x3 x4) (@m_upper_bound T0 L2 x1 x2 x3 x4).
Proof. intros. unfold m_upper_bound. up. Qed.
#[global] Hint Resolve up_m_upper_bound : updb.
Lemma up_upper_bound (L1 L2 : limit) (HL : tighter L1 L2) : forall T0 x1 x2 x3, upto (@upper_bound T0 L1 x1 x2 x3) (@upper_bound T0 L2 x1 x2 x3).
Proof. intros. unfold upper_bound. up. Qed.
#[global] Hint Resolve up_upper_bound : updb.
Lemma up_equal_range_loop (L1 L2 : limit) (HL : tighter L1 L2) : forall T0 n1 n2 x1 x3 x4 x5, n1 <= n2 -> upto (@equal_range_loop T0 L1 x1 n1 x3 x4 x5) (@equal_range_loop T0 L2 x1 n2 x3 x4 x5).
Proof. intros T0 n1. induction n1 as [|n1 IH]; intros n2 x1 x3 x4 x5 Hn; [apply upto_fuel0|]. destruct n2 as [|n2]; [lia|]. apply le_S_n in Hn. cbn [equal_range_loop]. upr IH. Qed.
#[global] Hint Resolve up_equal_range_loop : updb.
Lemma up_equal_range (L1 L2 : limit) (HL : tighter L1 L2) : forall T0 x1 x2 x3, upto (@equal_range T0 L1 x1 x2 x3) (@equal_range T0 L2 x1 x2 x3).
Proof. intros. unfold equal_range. up. Qed.
#[global] Hint Resolve up_equal_range : updb.
Lemma up_t_find (L1 L2 : limit) (HL : tighter L1 L2) : forall T0 x1 x2 x3, upto (@t_find T0 L1 x1 x2 x3) (@t_find T0 L2 x1 x2 x3).
Proof. intros. unfold t_find. up. Qed.
#[global] Hint Resolve up_t_find : updb.
Lemma up_distance (L1 L2 : limit) (HL : tighter L1 L2) : forall T0 n1 n2 x2 x3, n1 <= n2 -> upto (@distance T0 L1 n1 x2 x3) (@distance T0 L2 n2 x2 x3).
Proof. intros T0 n1. induction n1 as [|n1 IH]; intros n2 x2 x3 Hn; [apply upto_fuel0|]. destruct n2 as [|n2]; [lia|]. apply le_S_n in Hn. cbn [distance]. upr IH. Qed.
#[global] Hint Resolve up_distance : updb.
Lemma up_t_count (L1 L2 : limit) (HL : tighter L1 L2) : forall T0 x1 x2 x3, upto (@t_count T0 L1 x1 x2 x3) (@t_count T0 L2 x1 x2 x3).
Proof. intros. unfold t_count. up. Qed.
#[global] Hint Resolve up_t_count : updb.
Lemma up_unique_pos_loop : forall T0 n1 n2 x0 x2 x3 x4 x5, n1 <= n2 -> upto (@unique_pos_loop T0 x0 n1 x2 x3 x4 x5) (@unique_pos_loop T0 x0 n2 x2 x3 x4 x5).
Proof. intros T0 n1. induction n1 as [|n1 IH]; intros n2 x0 x2 x3 x4 x5 Hn; [apply upto_fuel0|]. destruct n2 as [|n2]; [lia|]. apply le_S_n in Hn. cbn [unique_pos_loop]. upr IH. Qed.
#[global] Hint Resolve up_unique_pos_loop : updb.
Lemma up_insert_unique_pos (L1 L2 : limit) (HL : tighter L1 L2) : forall T0 x1 x2 x3, upto (@insert_unique_pos T0 L1 x1 x2 x3) (@insert_unique_pos T0 L2 x1 x2 x3).
Proof. intros. unfold insert_unique_pos. up. Qed.
#[global] Hint Resolve up_insert_unique_pos : updb.
Lemma up_m_insert (L1 L2 : limit) (HL : tighter L1 L2) : forall T0 x1 x2 x3 x4 x5 x6, upto (@m_insert T0 L1 x1 x2 x3 x4 x5 x6) (@m_insert T0 L2 x1 x2 x3 x4 x5 x6).
Proof. intros. unfold m_insert. up. Qed.
#[global] Hint Resolve up_m_insert : updb.
Lemma up_insert_unique (L1 L2 : limit) (HL : tighter L1 L2) : forall T0 x1 x2 x3 x4, upto (@insert_unique T0 L1 x1 x2 x3 x4) (@insert_unique T0 L2 x1 x2 x3 x4).
Proof. intros. unfold insert_unique. up. Qed.
#[global] Hint Resolve up_insert_unique : updb.
Lemma up_insert_hint_unique_pos (L1 L2 : limit) (HL : tighter L1 L2) : forall T0 x1 x2 x3 x4, upto (@insert_hint_unique_pos T0 L1 x1 x2 x3 x4) (@insert_hint_unique_pos T0 L2 x1 x2 x3 x4).
Proof. intros. unfold insert_hint_unique_pos. up. Qed.
#[global] Hint Resolve up_insert_hint_unique_pos : updb.
Lemma up_insert_unique_at (L1 L2 : limit) (HL : tighter L1 L2) : forall T0 x1 x2 x3 x4 x5, upto (@insert_unique_at T0 L1 x1 x2 x3 x4 x5) (@insert_unique_at T0 L2 x1 x2 x3 x4 x5).
Proof. intros. unfold insert_unique_at. up. Qed.
#[global] Hint Resolve up_insert_unique_at : updb.
Lemma up_insert_unique_range (L1 L2 : limit) (HL : tighter L1 L2) : forall T0 x1 x2 x3 x4, upto (@insert_unique_range T0 L1 x1 x2 x3 x4) (@insert_unique_range T0 L2 x1 x2 x3 x4).
Proof. intros. revert x3. induction x4 as [|? ? IH]; intros; cbn [insert_unique_range]; upr IH. Qed.
#[global] Hint Resolve up_insert_unique_range : updb.
Lemma up_m_insert_node (L1 L2 : limit) (HL : tighter L1 L2) : forall T0 x1 x2 x3 x4 x5, upto (@m_insert_node T0 L1 x1 x2 x3 x4 x5) (@m_insert_node T0 L2 x1 x2 x3 x4 x5).
Proof. intros. unfold m_insert_node. up. Qed.
#[global] Hint Resolve up_m_insert_node : updb.
Lemma up_emplace_unique (L1 L2 : limit) (HL : tighter L1 L2) : forall T0 x1 x2 x3 x4, upto (@emplace_unique T0 L1 x1 x2 x3 x4) (@emplace_unique T0 L2 x1 x2 x3 x4).
Proof. intros. unfold emplace_unique. up. Qed.
#[global] Hint Resolve up_emplace_unique : updb.
Lemma up_emplace_hint_unique (L1 L2 : limit) (HL : tighter L1 L2) : forall T0 x1 x2 x3 x4 x5, upto (@emplace_hint_unique T0 L1 x1 x2 x3 x4 x5) (@emplace_hint_unique T0 L2 x1 x2 x3 x4 x5).
Proof. intros. unfold emplace_hint_unique. up. Qed.
#[global] Hint Resolve up_emplace_hint_unique : updb.
Lemma up_erase_aux (L1 L2 : limit) (HL : tighter L1 L2) : forall T0 x1 x2 x3, upto (@erase_aux T0 L1 x1 x2 x3) (@erase_aux T0 L2 x1 x2 x3).
Proof. intros. unfold erase_aux. up. Qed.
#[global] Hint Resolve up_erase_aux : updb.
Lemma up_t_erase (L1 L2 : limit) (HL : tighter L1 L2) : forall T0 x1 x2 x3, upto (@t_erase T0 L1 x1 x2 x3) (@t_erase T0 L2 x1 x2 x3).
Proof. intros. unfold t_erase. up. Qed.
#[global] Hint Resolve up_t_erase : updb.
Lemma up_erase_range_loop (L1 L2 : limit) (HL : tighter L1 L2) : forall T0 n1 n2 x1 x3 x4 x5, n1 <= n2 -> upto (@erase_range_loop T0 L1 x1 n1 x3 x4 x5) (@erase_range_loop T0 L2 x1 n2 x3 x4 x5).
Proof. intros T0 n1. induction n1 as [|n1 IH]; intros n2 x1 x3 x4 x5 Hn; [apply upto_fuel0|]. destruct n2 as [|n2]; [lia|]. apply le_S_n in Hn. cbn [erase_range_loop]. upr IH. Qed.
#[global] Hint Resolve up_erase_range_loop : updb.
Lemma up_t_erase_range (L1 L2 : limit) (HL : tighter L1 L2) : forall T0 x1 x2 x3 x4, upto (@t_erase_range T0 L1 x1 x2 x3 x4) (@t_erase_range T0 L2 x1 x2 x3 x4).
Proof. intros. unfold t_erase_range. up. Qed.
#[global] Hint Resolve up_t_erase_range : updb.
Lemma up_t_erase_key (L1 L2 : limit) (HL : tighter L1 L2) : forall T0 x1 x2 x3 x4, upto (@t_erase_key T0 L1 x1 x2 x3 x4) (@t_erase_key T0 L2 x1 x2 x3 x4).
Proof. intros. unfold t_erase_key. up. Qed.
#[global] Hint Resolve up_t_erase_key : updb.
Lemma up_t_erase_keys (L1 L2 : limit) (HL : tighter L1 L2) : forall T0 x1 x2 x3 x4, upto (@t_erase_keys T0 L1 x1 x2 x3 x4) (@t_erase_keys T0 L2 x1 x2 x3 x4).
Proof. intros. revert x3. induction x4 as [|? ? IH]; intros; cbn [t_erase_keys]; upr IH. Qed.
#[global] Hint Resolve up_t_erase_keys : updb.
Lemma up_m_copy (L1 L2 : limit) (HL : tighter L1 L2) : forall T0 n1 n2 x1 x3 x4 x5, n1 <= n2 -> upto (@m_copy T0 L1 x1 n1 x3 x4 x5) (@m_copy T0 L2 x1 n2 x3 x4 x5).
Proof. intros T0.
  enough (forall n1 n2 x1 x3 (Hn : n1 <= n2), (forall x4 x5, upto (@m_copy T0 L1 x1 n1 x3 x4 x5) (@m_copy T0 L2 x1 n2 x3 x4 x5)) /\
    (forall x4 x5 x6, upto (@copy_loop T0 L1 x1 n1 x3 x4 x5 x6) (@copy_loop T0 L2 x1 n2 x3 x4 x5 x6))) as H; [intros; by apply H|].
  induction n1 as [|n1 IH]; intros n2 x1 x3 Hn; [split; intros; apply upto_fuel0|]. destruct n2 as [|n2]; [lia|]. apply le_S_n in Hn.
  split; intros; [cbn [m_copy]|cbn [copy_loop]]; upr IH. Qed.
#[global] Hint Resolve up_m_copy : updb.
Lemma up_t_copy (L1 L2 : limit) (HL : tighter L1 L2) : forall T0 x1 x2 x3, upto (@t_copy T0 L1 x1 x2 x3) (@t_copy T0 L2 x1 x2 x3).
Proof. intros. unfold t_copy. up. Qed.
#[global] Hint Resolve up_t_copy : updb.
Lemma up_t_move_assign (L1 L2 : limit) (HL : tighter L1 L2) : forall T0 x1 x2, upto (@t_move_assign T0 L1 x1 x2) (@t_move_assign T0 L2 x1 x2).
Proof. intros. unfold t_move_assign. up. Qed.
#[global] Hint Resolve up_t_move_assign : updb.
Lemma up_t_step_iter (L1 L2 : limit) (HL : tighter L1 L2) : forall T0 x1 x2 x3, upto (@t_step_iter T0 L1 x1 x2 x3) (@t_step_iter T0 L2 x1 x2 x3).
Proof. intros. revert x1 x2. induction x3 as [|? ? IH]; intros; cbn [t_step_iter]; upr IH. Qed.
#[global] Hint Resolve up_t_step_iter : updb.
Lemma up_t_iter_at (L1 L2 : limit) (HL : tighter L1 L2) : forall T0 x1 x2, upto (@t_iter_at T0 L1 x1 x2) (@t_iter_at T0 L2 x1 x2).
Proof. intros. unfold t_iter_at. up. Qed.
#[global] Hint Resolve up_t_iter_at : updb.
Lemma up_t_walk_loop (L1 L2 : limit) (HL : tighter L1 L2) : forall T0 n1 n2 x2 x3, n1 <= n2 -> upto (@t_walk_loop T0 L1 n1 x2 x3) (@t_walk_loop T0 L2 n2 x2 x3).
Proof. intros T0 n1. induction n1 as [|n1 IH]; intros n2 x2 x3 Hn; [apply upto_fuel0|]. destruct n2 as [|n2]; [lia|]. apply le_S_n in Hn. cbn [t_walk_loop]. upr IH. Qed.
#[global] Hint Resolve up_t_walk_loop : updb.
Lemma up_t_walk (L1 L2 : limit) (HL : tighter L1 L2) : forall T0 x1, upto (@t_walk T0 L1 x1) (@t_walk T0 L2 x1).
Proof. intros. unfold t_walk. up. Qed.
#[global] Hint Resolve up_t_walk : updb.
Lemma up_t_rwalk_loop (L1 L2 : limit) (HL : tighter L1 L2) : forall T0 n1 n2 x2 x3, n1 <= n2 -> upto (@t_rwalk_loop T0 L1 n1 x2 x3) (@t_rwalk_loop T0 L2 n2 x2 x3).
Proof. intros T0 n1. induction n1 as [|n1 IH]; intros n2 x2 x3 Hn; [apply upto_fuel0|]. destruct n2 as [|n2]; [lia|]. apply le_S_n in Hn. cbn [t_rwalk_loop]. upr IH. Qed.
#[global] Hint Resolve up_t_rwalk_loop : updb.
Lemma up_t_rwalk (L1 L2 : limit) (HL : tighter L1 L2) : forall T0 x1, upto (@t_rwalk T0 L1 x1) (@t_rwalk T0 L2 x1).
Proof. intros. unfold t_rwalk. up. Qed.
#[global] Hint Resolve up_t_rwalk : updb.
Lemma up_t_get_arg (L1 L2 : limit) (HL : tighter L1 L2) : forall T0 x1 x2, upto (@t_get_arg T0 L1 x1 x2) (@t_get_arg T0 L2 x1 x2).
Proof. intros. unfold t_get_arg. up. Qed.
#[global] Hint Resolve up_t_get_arg : updb.
Lemma up_exec_sop (L1 L2 : limit) (HL : tighter L1 L2) : forall T0 x1 x2 x3 x4, upto (@exec_sop T0 L1 x1 x2 x3 x4) (@exec_sop T0 L2 x1 x2 x3 x4).
Proof. intros. unfold exec_sop, with_set, with_targ. up. Qed.
#[global] Hint Resolve up_exec_sop : updb.
Lemma up_exec_sops (L1 L2 : limit) (HL : tighter L1 L2) : forall T0 x1 x2 x3 x4, upto (@exec_sops T0 L1 x1 x2 x3 x4) (@exec_sops T0 L2 x1 x2 x3 x4).
Proof. intros. revert x4. induction x3 as [|? ? IH]; intros; cbn [exec_sops]; upr IH. Qed.
#[global] Hint Resolve up_exec_sops : updb.
Lemma up_destroy_sets (L1 L2 : limit) (HL : tighter L1 L2) : forall T0 x1, upto (@destroy_sets T0 L1 x1) (@destroy_sets T0 L2 x1).
Proof. intros. induction x1 as [|? ? IH]; intros; cbn [destroy_sets]; upr IH. Qed.
#[global] Hint Resolve up_destroy_sets : updb.
Lemma up_set_program (L1 L2 : limit) (HL : tighter L1 L2) : forall T0 x1 x2 x3 x4, upto (@set_program T0 L1 x1 x2 x3 x4) (@set_program T0 L2 x1 x2 x3 x4).
Proof. intros. unfold set_program. up. Qed.
#[global] Hint Resolve up_set_program : updb.
Lemma up_equal_pos_loop : forall T0 n1 n2 x0 x2 x3 x4, n1 <= n2 -> upto (@equal_pos_loop T0 x0 n1 x2 x3 x4) (@equal_pos_loop T0 x0 n2 x2 x3 x4).
Proof. intros T0 n1. induction n1 as [|n1 IH]; intros n2 x0 x2 x3 x4 Hn; [apply upto_fuel0|]. destruct n2 as [|n2]; [lia|]. apply le_S_n in Hn. cbn [equal_pos_loop]. upr IH. Qed.
#[global] Hint Resolve up_equal_pos_loop : updb.
Lemma up_insert_equal_pos (L1 L2 : limit) (HL : tighter L1 L2) : forall T0 x1 x2 x3, upto (@insert_equal_pos T0 L1 x1 x2 x3) (@insert_equal_pos T0 L2 x1 x2 x3).
Proof. intros. unfold insert_equal_pos. up. Qed.
#[global] Hint Resolve up_insert_equal_pos : updb.
Lemma up_insert_equal (L1 L2 : limit) (HL : tighter L1 L2) : forall T0 x1 x2 x3 x4, upto (@insert_equal T0 L1 x1 x2 x3 x4) (@insert_equal T0 L2 x1 x2 x3 x4).
Proof. intros. unfold insert_equal. up. Qed.
#[global] Hint Resolve up_insert_equal : updb.
Lemma up_m_insert_lower (L1 L2 : limit) (HL : tighter L1 L2) : forall T0 x1 x2 x3 x4 x5, upto (@m_insert_lower T0 L1 x1 x2 x3 x4 x5) (@m_insert_lower T0 L2 x1 x2 x3 x4 x5).
Proof. intros. unfold m_insert_lower. up. Qed.
#[global] Hint Resolve up_m_insert_lower : updb.
Lemma up_equal_lower_loop : forall T0 n1 n2 x0 x2 x3 x4, n1 <= n2 -> upto (@equal_lower_loop T0 x0 n1 x2 x3 x4) (@equal_lower_loop T0 x0 n2 x2 x3 x4).
Proof. intros T0 n1. induction n1 as [|n1 IH]; intros n2 x0 x2 x3 x4 Hn; [apply upto_fuel0|]. destruct n2 as [|n2]; [lia|]. apply le_S_n in Hn. cbn [equal_lower_loop]. upr IH. Qed.
#[global] Hint Resolve up_equal_lower_loop : updb.
Lemma up_insert_equal_lower (L1 L2 : limit) (HL : tighter L1 L2) : forall T0 x1 x2 x3 x4, upto (@insert_equal_lower T0 L1 x1 x2 x3 x4) (@insert_equal_lower T0 L2 x1 x2 x3 x4).
Proof. intros. unfold insert_equal_lower. up. Qed.
#[global] Hint Resolve up_insert_equal_lower : updb.
Lemma up_insert_hint_equal_pos (L1 L2 : limit) (HL : tighter L1 L2) : forall T0 x1 x2 x3 x4, upto (@insert_hint_equal_pos T0 L1 x1 x2 x3 x4) (@insert_hint_equal_pos T0 L2 x1 x2 x3 x4).
Proof. intros. unfold insert_hint_equal_pos. up. Qed.
#[global] Hint Resolve up_insert_hint_equal_pos : updb.
Lemma up_insert_equal_at (L1 L2 : limit) (HL : tighter L1 L2) : forall T0 x1 x2 x3 x4 x5, upto (@insert_equal_at T0 L1 x1 x2 x3 x4 x5) (@insert_equal_at T0 L2 x1 x2 x3 x4 x5).
Proof. intros. unfold insert_equal_at. up. Qed.
#[global] Hint Resolve up_insert_equal_at : updb.
Lemma up_m_insert_lower_node (L1 L2 : limit) (HL : tighter L1 L2) : forall T0 x1 x2 x3 x4, upto (@m_insert_lower_node T0 L1 x1 x2 x3 x4) (@m_insert_lower_node T0 L2 x1 x2 x3 x4).
Proof. intros. unfold m_insert_lower_node. up. Qed.
#[global] Hint Resolve up_m_insert_lower_node : updb.
Lemma up_insert_equal_lower_node (L1 L2 : limit) (HL : tighter L1 L2) : forall T0 x1 x2 x3, upto (@insert_equal_lower_node T0 L1 x1 x2 x3) (@insert_equal_lower_node T0 L2 x1 x2 x3).
Proof. intros. unfold insert_equal_lower_node. up. Qed.
#[global] Hint Resolve up_insert_equal_lower_node : updb.
Lemma up_emplace_equal (L1 L2 : limit) (HL : tighter L1 L2) : forall T0 x1 x2 x3 x4, upto (@emplace_equal T0 L1 x1 x2 x3 x4) (@emplace_equal T0 L2 x1 x2 x3 x4).
Proof. intros. unfold emplace_equal. up. Qed.
#[global] Hint Resolve up_emplace_equal : updb.
Lemma up_emplace_hint_equal (L1 L2 : limit) (HL : tighter L1 L2) : forall T0 x1 x2 x3 x4 x5, upto (@emplace_hint_equal T0 L1 x1 x2 x3 x4 x5) (@emplace_hint_equal T0 L2 x1 x2 x3 x4 x5).
Proof. intros. unfold emplace_hint_equal. up. Qed.
#[global] Hint Resolve up_emplace_hint_equal : updb.
Lemma up_emplace_equal_all (L1 L2 : limit) (HL : tighter L1 L2) : forall T0 x1 x2 x3 x4, upto (@emplace_equal_all T0 L1 x1 x2 x3 x4) (@emplace_equal_all T0 L2 x1 x2 x3 x4).
Proof. intros. revert x3. induction x4 as [|? ? IH]; intros; cbn [emplace_equal_all]; upr IH. Qed.
#[global] Hint Resolve up_emplace_equal_all : updb.
Lemma up_exec_mop (L1 L2 : limit) (HL : tighter L1 L2) : forall T0 x1 x2 x3 x4, upto (@exec_mop T0 L1 x1 x2 x3 x4) (@exec_mop T0 L2 x1 x2 x3 x4).
Proof. intros. unfold exec_mop, with_tree, with_marg, ans_iter. up. Qed.
#[global] Hint Resolve up_exec_mop : updb.
Lemma up_exec_mops (L1 L2 : limit) (HL : tighter L1 L2) : forall T0 x1 x2 x3 x4, upto (@exec_mops T0 L1 x1 x2 x3 x4) (@exec_mops T0 L2 x1 x2 x3 x4).
Proof. intros. revert x4. induction x3 as [|? ? IH]; intros; cbn [exec_mops]; upr IH. Qed.
#[global] Hint Resolve up_exec_mops : updb.
Lemma up_multi_program (L1 L2 : limit) (HL : tighter L1 L2) : forall T0 x1 x2 x3 x4, upto (@multi_program T0 L1 x1 x2 x3 x4) (@multi_program T0 L2 x1 x2 x3 x4).
Proof. intros. unfold multi_program. up. Qed.
#[global] Hint Resolve up_multi_program : updb.
Lemma up_tequal_loop (L1 L2 : limit) (HL : tighter L1 L2) : forall T0 n1 n2 x1 x3 x4 x5, n1 <= n2 -> upto (@tequal_loop T0 L1 x1 n1 x3 x4 x5) (@tequal_loop T0 L2 x1 n2 x3 x4 x5).
Proof. intros T0 n1. induction n1 as [|n1 IH]; intros n2 x1 x3 x4 x5 Hn; [apply upto_fuel0|]. destruct n2 as [|n2]; [lia|]. apply le_S_n in Hn. cbn [tequal_loop]. upr IH. Qed.
#[global] Hint Resolve up_tequal_loop : updb.
Lemma up_tlex_loop (L1 L2 : limit) (HL : tighter L1 L2) : forall T0 n1 n2 x1 x3 x4 x5 x6, n1 <= n2 -> upto (@tlex_loop T0 L1 x1 n1 x3 x4 x5 x6) (@tlex_loop T0 L2 x1 n2 x3 x4 x5 x6).
Proof. intros T0 n1. induction n1 as [|n1 IH]; intros n2 x1 x3 x4 x5 x6 Hn; [apply upto_fuel0|]. destruct n2 as [|n2]; [lia|]. apply le_S_n in Hn. cbn [tlex_loop]. upr IH. Qed.
#[global] Hint Resolve up_tlex_loop : updb.
Lemma up_t_eq (L1 L2 : limit) (HL : tighter L1 L2) : forall T0 x1 x2 x3, upto (@t_eq T0 L1 x1 x2 x3) (@t_eq T0 L2 x1 x2 x3).
Proof. intros. unfold t_eq. up. Qed.
#[global] Hint Resolve up_t_eq : updb.
Lemma up_t_lt (L1 L2 : limit) (HL : tighter L1 L2) : forall T0 x1 x2 x3, upto (@t_lt T0 L1 x1 x2 x3) (@t_lt T0 L2 x1 x2 x3).
Proof. intros. unfold t_lt. up. Qed.
#[global] Hint Resolve up_t_lt : updb.
Lemma up_t_ne (L1 L2 : limit) (HL : tighter L1 L2) : forall T0 x1 x2 x3, upto (@t_ne T0 L1 x1 x2 x3) (@t_ne T0 L2 x1 x2 x3).
Proof. intros. unfold t_ne. up. Qed.
#[global] Hint Resolve up_t_ne : updb.
Lemma up_t_gt (L1 L2 : limit) (HL : tighter L1 L2) : forall T0 x1 x2 x3, upto (@t_gt T0 L1 x1 x2 x3) (@t_gt T0 L2 x1 x2 x3).
Proof. intros. unfold t_gt. up. Qed.
#[global] Hint Resolve up_t_gt : updb.
Lemma up_t_le (L1 L2 : limit) (HL : tighter L1 L2) : forall T0 x1 x2 x3, upto (@t_le T0 L1 x1 x2 x3) (@t_le T0 L2 x1 x2 x3).
Proof. intros. unfold t_le. up. Qed.
#[global] Hint Resolve up_t_le : updb.
Lemma up_t_ge (L1 L2 : limit) (HL : tighter L1 L2) : forall T0 x1 x2 x3, upto (@t_ge T0 L1 x1 x2 x3) (@t_ge T0 L2 x1 x2 x3).
Proof. intros. unfold t_ge. up. Qed.
#[global] Hint Resolve up_t_ge : updb.
Lemma up_black_count_loop : forall T0 n1 n2 x1 x2 x3, n1 <= n2 -> upto (@black_count_loop T0 n1 x1 x2 x3) (@black_count_loop T0 n2 x1 x2 x3).
Proof. intros T0 n1. induction n1 as [|n1 IH]; intros n2 x1 x2 x3 Hn; [apply upto_fuel0|]. destruct n2 as [|n2]; [lia|]. apply le_S_n in Hn. cbn [black_count_loop]. upr IH. Qed.
#[global] Hint Resolve up_black_count_loop : updb.
Lemma up_black_count (L1 L2 : limit) (HL : tighter L1 L2) : forall T0 x1 x2, upto (@black_count T0 L1 x1 x2) (@black_count T0 L2 x1 x2).
Proof. intros. unfold black_count. up. Qed.
#[global] Hint Resolve up_black_count : updb.
Lemma up_verify_node (L1 L2 : limit) (HL : tighter L1 L2) : forall T0 x1 x2 x3 x4, upto (@verify_node T0 L1 x1 x2 x3 x4) (@verify_node T0 L2 x1 x2 x3 x4).
Proof. intros. unfold verify_node. up. Qed.
#[global] Hint Resolve up_verify_node : updb.
Lemma up_verify_loop (L1 L2 : limit) (HL : tighter L1 L2) : forall T0 n1 n2 x1 x3 x4 x5 x6, n1 <= n2 -> upto (@verify_loop T0 L1 x1 n1 x3 x4 x5 x6) (@verify_loop T0 L2 x1 n2 x3 x4 x5 x6).
Proof. intros T0 n1. induction n1 as [|n1 IH]; intros n2 x1 x3 x4 x5 x6 Hn; [apply upto_fuel0|]. destruct n2 as [|n2]; [lia|]. apply le_S_n in Hn. cbn [verify_loop]. upr IH. Qed.
#[global] Hint Resolve up_verify_loop : updb.
Lemma up_rb_verify (L1 L2 : limit) (HL : tighter L1 L2) : forall T0 x1 x2 x3, upto (@rb_verify T0 L1 x1 x2 x3) (@rb_verify T0 L2 x1 x2 x3).
Proof. intros. unfold rb_verify. up. Qed.
#[global] Hint Resolve up_rb_verify : updb.
