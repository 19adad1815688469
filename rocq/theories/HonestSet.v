(** * Which errors set operations report *)
From Verif Require Export Errors RbHistSpec.
From Verif Require Import RbModel.


Lemma sh_deref : forall T0 x0, silent (@deref T0 x0).
Proof. intros. unfold deref. sh. Qed.
#[global] Hint Resolve sh_deref : shdb.
Lemma sh_get_field : forall T0 T1 x0 x1, silent (@get_field T0 T1 x0 x1).
Proof. intros. unfold get_field. sh. Qed.
#[global] Hint Resolve sh_get_field : shdb.
Lemma sh_get_color : forall T0 x0, silent (@get_color T0 x0).
Proof. intros. unfold get_color. sh. Qed.
#[global] Hint Resolve sh_get_color : shdb.
Lemma sh_get_parent : forall T0 x0, silent (@get_parent T0 x0).
Proof. intros. unfold get_parent. sh. Qed.
#[global] Hint Resolve sh_get_parent : shdb.
Lemma sh_get_left : forall T0 x0, silent (@get_left T0 x0).
Proof. intros. unfold get_left. sh. Qed.
#[global] Hint Resolve sh_get_left : shdb.
Lemma sh_get_right : forall T0 x0, silent (@get_right T0 x0).
Proof. intros. unfold get_right. sh. Qed.
#[global] Hint Resolve sh_get_right : shdb.
Lemma sh_set_color : forall T0 x0 x1, silent (@set_color T0 x0 x1).
Proof. intros. unfold set_color. sh. Qed.
#[global] Hint Resolve sh_set_color : shdb.
Lemma sh_set_parent : forall T0 x0 x1, silent (@set_parent T0 x0 x1).
Proof. intros. unfold set_parent. sh. Qed.
#[global] Hint Resolve sh_set_parent : shdb.
Lemma sh_set_left : forall T0 x0 x1, silent (@set_left T0 x0 x1).
Proof. intros. unfold set_left. sh. Qed.
#[global] Hint Resolve sh_set_left : shdb.
Lemma sh_set_right : forall T0 x0 x1, silent (@set_right T0 x0 x1).
Proof. intros. unfold set_right. sh. Qed.
#[global] Hint Resolve sh_set_right : shdb.
Lemma sh_parent_of : forall T0 x0, silent (@parent_of T0 x0).
Proof. intros. unfold parent_of. sh. Qed.
#[global] Hint Resolve sh_parent_of : shdb.
Lemma sh_is_red : forall T0 x0, silent (@is_red T0 x0).
Proof. intros. unfold is_red. sh. Qed.
#[global] Hint Resolve sh_is_red : shdb.
Lemma sh_is_black : forall T0 x0, silent (@is_black T0 x0).
Proof. intros. unfold is_black. sh. Qed.
#[global] Hint Resolve sh_is_black : shdb.
Lemma sh_tplace : forall T0 x0 x1, silent (@tplace T0 x0 x1).
Proof. intros. unfold tplace. sh. Qed.
#[global] Hint Resolve sh_tplace : shdb.
Lemma sh_tread : forall T0 x0, silent (@tread T0 x0).
Proof. intros. unfold tread. sh. Qed.
#[global] Hint Resolve sh_tread : shdb.
Lemma sh_toverwrite : forall T0 x0 x1, silent (@toverwrite T0 x0 x1).
Proof. intros. unfold toverwrite. sh. Qed.
#[global] Hint Resolve sh_toverwrite : shdb.
Lemma sh_tdestroy_value : forall T0 x0, silent (@tdestroy_value T0 x0).
Proof. intros. unfold tdestroy_value. sh. Qed.
#[global] Hint Resolve sh_tdestroy_value : shdb.
Lemma sh_read_targ : forall T0 x0, silent (@read_targ T0 x0).
Proof. intros. unfold read_targ. sh. Qed.
#[global] Hint Resolve sh_read_targ : shdb.
Lemma sh_put_node : forall T0 x0 x1, silent (@put_node T0 x0 x1).
Proof. intros. unfold put_node. sh. Qed.
#[global] Hint Resolve sh_put_node : shdb.
Lemma sh_tcreate_node (L : error -> Prop) : forall T0 x0 x1 x2, honest L (@tcreate_node T0 x0 x1 x2).
Proof. intros. unfold tcreate_node. sh. Qed.
#[global] Hint Resolve sh_tcreate_node : shdb.
Lemma sh_tdestroy_node : forall T0 x0 x1, silent (@tdestroy_node T0 x0 x1).
Proof. intros. unfold tdestroy_node. sh. Qed.
#[global] Hint Resolve sh_tdestroy_node : shdb.
Lemma sh_tree_fuel : forall T0 x0, silent (@tree_fuel T0 x0).
Proof. intros. unfold tree_fuel. sh. Qed.
#[global] Hint Resolve sh_tree_fuel : shdb.
Lemma sh_cell_fuel : forall T0 , silent (@cell_fuel T0 ).
Proof. intros. unfold cell_fuel. sh. Qed.
#[global] Hint Resolve sh_cell_fuel : shdb.
Lemma sh_minimum_loop : forall T0 x0 x1, silent (@minimum_loop T0 x0 x1).
Proof. intros. revert x1. induction x0 as [|? IH]; intros; cbn [minimum_loop]; shr IH. Qed.
#[global] Hint Resolve sh_minimum_loop : shdb.
Lemma sh_s_minimum : forall T0 x0 x1 x2, silent (@s_minimum T0 x0 x1 x2).
Proof. intros. unfold s_minimum. sh. Qed.
#[global] Hint Resolve sh_s_minimum : shdb.
Lemma sh_maximum_loop : forall T0 x0 x1, silent (@maximum_loop T0 x0 x1).
Proof. intros. revert x1. induction x0 as [|? IH]; intros; cbn [maximum_loop]; shr IH. Qed.
#[global] Hint Resolve sh_maximum_loop : shdb.
Lemma sh_s_maximum : forall T0 x0 x1 x2, silent (@s_maximum T0 x0 x1 x2).
Proof. intros. unfold s_maximum. sh. Qed.
#[global] Hint Resolve sh_s_maximum : shdb.
Lemma sh_inc_loop : forall T0 x0 x1 x2, silent (@inc_loop T0 x0 x1 x2).
Proof. intros. revert x1 x2. induction x0 as [|? IH]; intros; cbn [inc_loop]; shr IH. Qed.
#[global] Hint Resolve sh_inc_loop : shdb.
Lemma sh_rb_increment : forall T0 x0 x1, silent (@rb_increment T0 x0 x1).
Proof. intros. unfold rb_increment. sh. Qed.
#[global] Hint Resolve sh_rb_increment : shdb.
Lemma sh_dec_loop : forall T0 x0 x1 x2, silent (@dec_loop T0 x0 x1 x2).
Proof. intros. revert x1 x2. induction x0 as [|? IH]; intros; cbn [dec_loop]; shr IH. Qed.
#[global] Hint Resolve sh_dec_loop : shdb.
Lemma sh_rb_decrement : forall T0 x0 x1, silent (@rb_decrement T0 x0 x1).
Proof. intros. unfold rb_decrement. sh. Qed.
#[global] Hint Resolve sh_rb_decrement : shdb.
Lemma sh_rotate_left : forall T0 x0 x1, silent (@rotate_left T0 x0 x1).
Proof. intros. unfold rotate_left. sh. Qed.
#[global] Hint Resolve sh_rotate_left : shdb.
Lemma sh_rotate_right : forall T0 x0 x1, silent (@rotate_right T0 x0 x1).
Proof. intros. unfold rotate_right. sh. Qed.
#[global] Hint Resolve sh_rotate_right : shdb.
Lemma sh_ins_loop : forall T0 x0 x1 x2, silent (@ins_loop T0 x0 x1 x2).
Proof. intros. revert x1 x2. induction x0 as [|? IH]; intros; cbn [ins_loop]; shr IH. Qed.
#[global] Hint Resolve sh_ins_loop : shdb.
Lemma sh_ins_link : forall T0 x0 x1 x2 x3, silent (@ins_link T0 x0 x1 x2 x3).
Proof. intros. unfold ins_link. sh. Qed.
#[global] Hint Resolve sh_ins_link : shdb.
Lemma sh_insert_and_rebalance : forall T0 x0 x1 x2 x3 x4, silent (@insert_and_rebalance T0 x0 x1 x2 x3 x4).
Proof. intros. unfold insert_and_rebalance. sh. Qed.
#[global] Hint Resolve sh_insert_and_rebalance : shdb.
Lemma sh_erase_unlink : forall T0 x0 x1 x2 x3, silent (@erase_unlink T0 x0 x1 x2 x3).
Proof. intros. unfold erase_unlink. sh. Qed.
#[global] Hint Resolve sh_erase_unlink : shdb.
Lemma sh_erase_loop : forall T0 x0 x1 x2 x3, silent (@erase_loop T0 x0 x1 x2 x3).
Proof. intros. revert x1 x2 x3. induction x0 as [|? IH]; intros; cbn [erase_loop]; shr IH. Qed.
#[global] Hint Resolve sh_erase_loop : shdb.
Lemma sh_rebalance_for_erase : forall T0 x0 x1 x2 x3, silent (@rebalance_for_erase T0 x0 x1 x2 x3).
Proof. intros. unfold rebalance_for_erase. sh. Qed.
#[global] Hint Resolve sh_rebalance_for_erase : shdb.
Lemma sh_get_count : forall T0 x0, silent (@get_count T0 x0).
Proof. intros. unfold get_count. sh. Qed.
#[global] Hint Resolve sh_get_count : shdb.
Lemma sh_set_count : forall T0 x0 x1, silent (@set_count T0 x0 x1).
Proof. intros. unfold set_count. sh. Qed.
#[global] Hint Resolve sh_set_count : shdb.
Lemma sh_tset_new : forall T0 x0, silent (@tset_new T0 x0).
Proof. intros. unfold tset_new. sh. Qed.
#[global] Hint Resolve sh_tset_new : shdb.
Lemma sh_t_begin : forall T0 x0, silent (@t_begin T0 x0).
Proof. intros. unfold t_begin. sh. Qed.
#[global] Hint Resolve sh_t_begin : shdb.
Lemma sh_t_empty : forall T0 x0, silent (@t_empty T0 x0).
Proof. intros. unfold t_empty. sh. Qed.
#[global] Hint Resolve sh_t_empty : shdb.
Lemma sh_t_size : forall T0 x0, silent (@t_size T0 x0).
Proof. intros. unfold t_size. sh. Qed.
#[global] Hint Resolve sh_t_size : shdb.
Lemma sh_erase_sub : forall T0 x0 x1 x2, silent (@erase_sub T0 x0 x1 x2).
Proof. intros. revert x1 x2. induction x0 as [|? IH]; intros; cbn [erase_sub]; shr IH. Qed.
#[global] Hint Resolve sh_erase_sub : shdb.
Lemma sh_m_erase : forall T0 x0 x1 x2, silent (@m_erase T0 x0 x1 x2).
Proof. intros. unfold m_erase. sh. Qed.
#[global] Hint Resolve sh_m_erase : shdb.
Lemma sh_t_clear : forall T0 x0 x1, silent (@t_clear T0 x0 x1).
Proof. intros. unfold t_clear. sh. Qed.
#[global] Hint Resolve sh_t_clear : shdb.
Lemma sh_t_destroy : forall T0 x0 x1, silent (@t_destroy T0 x0 x1).
Proof. intros. unfold t_destroy. sh. Qed.
#[global] Hint Resolve sh_t_destroy : shdb.
Lemma sh_lower_loop : forall T0 x0 x1 x2 x3 x4, silent (@lower_loop T0 x0 x1 x2 x3 x4).
Proof. intros. revert x2 x3 x4. induction x1 as [|? IH]; intros; cbn [lower_loop]; shr IH. Qed.
#[global] Hint Resolve sh_lower_loop : shdb.
Lemma sh_m_lower_bound : forall T0 x0 x1 x2 x3 x4, silent (@m_lower_bound T0 x0 x1 x2 x3 x4).
Proof. intros. unfold m_lower_bound. sh. Qed.
#[global] Hint Resolve sh_m_lower_bound : shdb.
Lemma sh_lower_bound : forall T0 x0 x1 x2 x3, silent (@lower_bound T0 x0 x1 x2 x3).
Proof. intros. unfold lower_bound. sh. Qed.
#[global] Hint Resolve sh_lower_bound : shdb.
Lemma sh_upper_loop : forall T0 x0 x1 x2 x3 x4, silent (@upper_loop T0 x0 x1 x2 x3 x4).
Proof. intros. revert x2 x3 x4. induction x1 as [|? IH]; intros; cbn [upper_loop]; shr IH. Qed.
#[global] Hint Resolve sh_upper_loop : shdb.
Lemma sh_m_upper_bound : forall T0 x0 x1 x2 x3 x4, silent (@m_upper_bound T0 x0 x1 x2 x3 x4).
Proof. intros. unfold m_upper_bound. sh. Qed.
#[global] Hint Resolve sh_m_upper_bound : shdb.
Lemma sh_upper_bound : forall T0 x0 x1 x2 x3, silent (@upper_bound T0 x0 x1 x2 x3).
Proof. intros. unfold upper_bound. sh. Qed.
#[global] Hint Resolve sh_upper_bound : shdb.
Lemma sh_equal_range_loop : forall T0 x0 x1 x2 x3 x4 x5, silent (@equal_range_loop T0 x0 x1 x2 x3 x4 x5).
Proof. intros. revert x3 x4 x5. induction x2 as [|? IH]; intros; cbn [equal_range_loop]; shr IH. Qed.
#[global] Hint Resolve sh_equal_range_loop : shdb.
Lemma sh_equal_range : forall T0 x0 x1 x2 x3, silent (@equal_range T0 x0 x1 x2 x3).
Proof. intros. unfold equal_range. sh. Qed.
#[global] Hint Resolve sh_equal_range : shdb.
Lemma sh_t_find : forall T0 x0 x1 x2 x3, silent (@t_find T0 x0 x1 x2 x3).
Proof. intros. unfold t_find. sh. Qed.
#[global] Hint Resolve sh_t_find : shdb.
Lemma sh_distance : forall T0 x0 x1 x2 x3, silent (@distance T0 x0 x1 x2 x3).
Proof. intros. revert x2 x3. induction x1 as [|? IH]; intros; cbn [distance]; shr IH. Qed.
#[global] Hint Resolve sh_distance : shdb.
Lemma sh_t_count : forall T0 x0 x1 x2 x3, silent (@t_count T0 x0 x1 x2 x3).
Proof. intros. unfold t_count. sh. Qed.
#[global] Hint Resolve sh_t_count : shdb.
Lemma sh_unique_pos_loop : forall T0 x0 x1 x2 x3 x4 x5, silent (@unique_pos_loop T0 x0 x1 x2 x3 x4 x5).
Proof. intros. revert x2 x3 x4 x5. induction x1 as [|? IH]; intros; cbn [unique_pos_loop]; shr IH. Qed.
#[global] Hint Resolve sh_unique_pos_loop : shdb.
Lemma sh_insert_unique_pos : forall T0 x0 x1 x2 x3, silent (@insert_unique_pos T0 x0 x1 x2 x3).
Proof. intros. unfold insert_unique_pos. sh. Qed.
#[global] Hint Resolve sh_insert_unique_pos : shdb.
Lemma sh_m_insert (L : error -> Prop) : forall T0 x0 x1 x2 x3 x4 x5 x6, honest L (@m_insert T0 x0 x1 x2 x3 x4 x5 x6).
Proof. intros. unfold m_insert. sh. Qed.
#[global] Hint Resolve sh_m_insert : shdb.
Lemma sh_insert_unique (L : error -> Prop) : forall T0 x0 x1 x2 x3 x4, honest L (@insert_unique T0 x0 x1 x2 x3 x4).
Proof. intros. unfold insert_unique. sh. Qed.
#[global] Hint Resolve sh_insert_unique : shdb.
Lemma sh_insert_hint_unique_pos : forall T0 x0 x1 x2 x3 x4, silent (@insert_hint_unique_pos T0 x0 x1 x2 x3 x4).
Proof. intros. unfold insert_hint_unique_pos. sh. Qed.
#[global] Hint Resolve sh_insert_hint_unique_pos : shdb.
Lemma sh_insert_unique_at (L : error -> Prop) : forall T0 x0 x1 x2 x3 x4 x5, honest L (@insert_unique_at T0 x0 x1 x2 x3 x4 x5).
Proof. intros. unfold insert_unique_at. sh. Qed.
#[global] Hint Resolve sh_insert_unique_at : shdb.
Lemma sh_insert_unique_range (L : error -> Prop) : forall T0 x0 x1 x2 x3 x4, honest L (@insert_unique_range T0 x0 x1 x2 x3 x4).
Proof. intros. revert x3. induction x4 as [|? ? IH]; intros; cbn [insert_unique_range]; shr IH. Qed.
#[global] Hint Resolve sh_insert_unique_range : shdb.
Lemma sh_m_insert_node : forall T0 x0 x1 x2 x3 x4 x5, silent (@m_insert_node T0 x0 x1 x2 x3 x4 x5).
Proof. intros. unfold m_insert_node. sh. Qed.
#[global] Hint Resolve sh_m_insert_node : shdb.
Lemma sh_emplace_unique (L : error -> Prop) : forall T0 x0 x1 x2 x3 x4, honest L (@emplace_unique T0 x0 x1 x2 x3 x4).
Proof. intros. unfold emplace_unique. sh. Qed.
#[global] Hint Resolve sh_emplace_unique : shdb.
Lemma sh_emplace_hint_unique (L : error -> Prop) : forall T0 x0 x1 x2 x3 x4 x5, honest L (@emplace_hint_unique T0 x0 x1 x2 x3 x4 x5).
Proof. intros. unfold emplace_hint_unique. sh. Qed.
#[global] Hint Resolve sh_emplace_hint_unique : shdb.
Lemma sh_erase_aux : forall T0 x0 x1 x2 x3, silent (@erase_aux T0 x0 x1 x2 x3).
Proof. intros. unfold erase_aux. sh. Qed.
#[global] Hint Resolve sh_erase_aux : shdb.
Lemma sh_t_erase : forall T0 x0 x1 x2 x3, silent (@t_erase T0 x0 x1 x2 x3).
Proof. intros. unfold t_erase. sh. Qed.
#[global] Hint Resolve sh_t_erase : shdb.
Lemma sh_erase_range_loop : forall T0 x0 x1 x2 x3 x4 x5, silent (@erase_range_loop T0 x0 x1 x2 x3 x4 x5).
Proof. intros. revert x3 x4 x5. induction x2 as [|? IH]; intros; cbn [erase_range_loop]; shr IH. Qed.
#[global] Hint Resolve sh_erase_range_loop : shdb.
Lemma sh_t_erase_range : forall T0 x0 x1 x2 x3 x4, silent (@t_erase_range T0 x0 x1 x2 x3 x4).
Proof. intros. unfold t_erase_range. sh. Qed.
#[global] Hint Resolve sh_t_erase_range : shdb.
Lemma sh_t_erase_key : forall T0 x0 x1 x2 x3 x4, silent (@t_erase_key T0 x0 x1 x2 x3 x4).
Proof. intros. unfold t_erase_key. sh. Qed.
#[global] Hint Resolve sh_t_erase_key : shdb.
Lemma sh_t_erase_keys : forall T0 x0 x1 x2 x3 x4, silent (@t_erase_keys T0 x0 x1 x2 x3 x4).
Proof. intros. revert x3. induction x4 as [|? ? IH]; intros; cbn [t_erase_keys]; shr IH. Qed.
#[global] Hint Resolve sh_t_erase_keys : shdb.
Lemma sh_clone_node (L : error -> Prop) : forall T0 x0 x1 x2, honest L (@clone_node T0 x0 x1 x2).
Proof. intros. unfold clone_node. sh. Qed.
#[global] Hint Resolve sh_clone_node : shdb.
Lemma sh_m_copy (L : error -> Prop) : forall T0 x0 x1 x2 x3 x4 x5, honest L (@m_copy T0 x0 x1 x2 x3 x4 x5).
Proof. 
  intros T0 LL x0 x1. enough (forall x2 x3, (forall x4, honest L (m_copy x0 x1 x2 x3 x4)) /\ (forall x4 x5, honest L (copy_loop x0 x1 x2 x3 x4 x5))) as H; [intros; apply H|].
  induction x1 as [|n IH]; intros x2 x3; (split; intros; [cbn [m_copy]|cbn [copy_loop]]); shr IH.
 Qed.
#[global] Hint Resolve sh_m_copy : shdb.
Lemma sh_t_copy (L : error -> Prop) : forall T0 x0 x1 x2 x3, honest L (@t_copy T0 x0 x1 x2 x3).
Proof. intros. unfold t_copy. sh. Qed.
#[global] Hint Resolve sh_t_copy : shdb.
Lemma sh_move_data : forall T0 x0 x1, silent (@move_data T0 x0 x1).
Proof. intros. unfold move_data. sh. Qed.
#[global] Hint Resolve sh_move_data : shdb.
Lemma sh_t_move_ctor : forall T0 x0, silent (@t_move_ctor T0 x0).
Proof. intros. unfold t_move_ctor. sh. Qed.
#[global] Hint Resolve sh_t_move_ctor : shdb.
Lemma sh_t_move_assign : forall T0 x0 x1 x2, silent (@t_move_assign T0 x0 x1 x2).
Proof. intros. unfold t_move_assign. sh. Qed.
#[global] Hint Resolve sh_t_move_assign : shdb.
Lemma sh_t_swap : forall T0 x0 x1, silent (@t_swap T0 x0 x1).
Proof. intros. unfold t_swap. sh. Qed.
#[global] Hint Resolve sh_t_swap : shdb.
Lemma sh_t_step_iter : forall T0 x0 x1 x2 x3, silent (@t_step_iter T0 x0 x1 x2 x3).
Proof. intros. revert x1 x2. induction x3 as [|? IH]; intros; cbn [t_step_iter]; shr IH. Qed.
#[global] Hint Resolve sh_t_step_iter : shdb.
Lemma sh_t_iter_at : forall T0 x0 x1 x2, silent (@t_iter_at T0 x0 x1 x2).
Proof. intros. unfold t_iter_at. sh. Qed.
#[global] Hint Resolve sh_t_iter_at : shdb.
Lemma sh_read_iter : forall T0 x0 x1, silent (@read_iter T0 x0 x1).
Proof. intros. unfold read_iter. sh. Qed.
#[global] Hint Resolve sh_read_iter : shdb.
Lemma sh_t_walk_loop : forall T0 x0 x1 x2 x3, silent (@t_walk_loop T0 x0 x1 x2 x3).
Proof. intros. revert x2 x3. induction x1 as [|? IH]; intros; cbn [t_walk_loop]; shr IH. Qed.
#[global] Hint Resolve sh_t_walk_loop : shdb.
Lemma sh_t_walk : forall T0 x0 x1, silent (@t_walk T0 x0 x1).
Proof. intros. unfold t_walk. sh. Qed.
#[global] Hint Resolve sh_t_walk : shdb.
Lemma sh_t_rwalk_loop : forall T0 x0 x1 x2 x3, silent (@t_rwalk_loop T0 x0 x1 x2 x3).
Proof. intros. revert x2 x3. induction x1 as [|? IH]; intros; cbn [t_rwalk_loop]; shr IH. Qed.
#[global] Hint Resolve sh_t_rwalk_loop : shdb.
Lemma sh_t_rwalk : forall T0 x0 x1, silent (@t_rwalk T0 x0 x1).
Proof. intros. unfold t_rwalk. sh. Qed.
#[global] Hint Resolve sh_t_rwalk : shdb.
Lemma sh_t_get_arg : forall T0 x0 x1 x2, silent (@t_get_arg T0 x0 x1 x2).
Proof. intros. unfold t_get_arg. sh. Qed.
#[global] Hint Resolve sh_t_get_arg : shdb.
Lemma sh_exec_sop (L : error -> Prop) : forall T0 x0 x1 x2 x3 x4, honest L (@exec_sop T0 x0 x1 x2 x3 x4).
Proof. intros. unfold exec_sop, with_set, with_targ. sh. Qed.
#[global] Hint Resolve sh_exec_sop : shdb.
