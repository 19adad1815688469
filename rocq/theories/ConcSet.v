(** * Set operations as programs of single steps *)
From Verif Require Export Conc RbHistSpec.
From Verif Require Import RbModel.

Lemma st_deref : forall b0 T0 x0, steps b0 (@deref T0 x0).
Proof. intros. unfold deref. stp. Defined.
#[global] Hint Resolve st_deref : stdb.
Lemma st_get_field : forall b0 T0 T1 x0 x1, steps b0 (@get_field T0 T1 x0 x1).
Proof. intros. unfold get_field. stp. Defined.
#[global] Hint Resolve st_get_field : stdb.
Lemma st_get_color : forall b0 T0 x0, steps b0 (@get_color T0 x0).
Proof. intros. unfold get_color. stp. Defined.
#[global] Hint Resolve st_get_color : stdb.
Lemma st_get_parent : forall b0 T0 x0, steps b0 (@get_parent T0 x0).
Proof. intros. unfold get_parent. stp. Defined.
#[global] Hint Resolve st_get_parent : stdb.
Lemma st_get_left : forall b0 T0 x0, steps b0 (@get_left T0 x0).
Proof. intros. unfold get_left. stp. Defined.
#[global] Hint Resolve st_get_left : stdb.
Lemma st_get_right : forall b0 T0 x0, steps b0 (@get_right T0 x0).
Proof. intros. unfold get_right. stp. Defined.
#[global] Hint Resolve st_get_right : stdb.
Lemma st_set_color : forall T0 x0 x1, steps false (@set_color T0 x0 x1).
Proof. intros. unfold set_color. stp. Defined.
#[global] Hint Resolve st_set_color : stdb.
Lemma st_set_parent : forall T0 x0 x1, steps false (@set_parent T0 x0 x1).
Proof. intros. unfold set_parent. stp. Defined.
#[global] Hint Resolve st_set_parent : stdb.
Lemma st_set_left : forall T0 x0 x1, steps false (@set_left T0 x0 x1).
Proof. intros. unfold set_left. stp. Defined.
#[global] Hint Resolve st_set_left : stdb.
Lemma st_set_right : forall T0 x0 x1, steps false (@set_right T0 x0 x1).
Proof. intros. unfold set_right. stp. Defined.
#[global] Hint Resolve st_set_right : stdb.
Lemma st_parent_of : forall b0 T0 x0, steps b0 (@parent_of T0 x0).
Proof. intros. unfold parent_of. stp. Defined.
#[global] Hint Resolve st_parent_of : stdb.
Lemma st_is_red : forall b0 T0 x0, steps b0 (@is_red T0 x0).
Proof. intros. unfold is_red. stp. Defined.
#[global] Hint Resolve st_is_red : stdb.
Lemma st_is_black : forall b0 T0 x0, steps b0 (@is_black T0 x0).
Proof. intros. unfold is_black. stp. Defined.
#[global] Hint Resolve st_is_black : stdb.
Lemma st_tplace : forall T0 x0 x1, steps false (@tplace T0 x0 x1).
Proof. intros. unfold tplace. stp. Defined.
#[global] Hint Resolve st_tplace : stdb.
Lemma st_tread : forall b0 T0 x0, steps b0 (@tread T0 x0).
Proof. intros. unfold tread. stp. Defined.
#[global] Hint Resolve st_tread : stdb.
Lemma st_toverwrite : forall T0 x0 x1, steps false (@toverwrite T0 x0 x1).
Proof. intros. unfold toverwrite. stp. Defined.
#[global] Hint Resolve st_toverwrite : stdb.
Lemma st_tdestroy_value : forall T0 x0, steps false (@tdestroy_value T0 x0).
Proof. intros. unfold tdestroy_value. stp. Defined.
#[global] Hint Resolve st_tdestroy_value : stdb.
Lemma st_read_targ : forall b0 T0 x0, steps b0 (@read_targ T0 x0).
Proof. intros. unfold read_targ. stp. Defined.
#[global] Hint Resolve st_read_targ : stdb.
Lemma st_put_node : forall T0 x0 x1, steps false (@put_node T0 x0 x1).
Proof. intros. unfold put_node. stp. Defined.
#[global] Hint Resolve st_put_node : stdb.
Lemma st_tcreate_node : forall T0 x0 x1 x2, steps false (@tcreate_node T0 x0 x1 x2).
Proof. intros. unfold tcreate_node. stp. Defined.
#[global] Hint Resolve st_tcreate_node : stdb.
Lemma st_tdestroy_node : forall T0 x0 x1, steps false (@tdestroy_node T0 x0 x1).
Proof. intros. unfold tdestroy_node. stp. Defined.
#[global] Hint Resolve st_tdestroy_node : stdb.
Lemma st_tree_fuel : forall b0 T0 x0, steps b0 (@tree_fuel T0 x0).
Proof. intros. unfold tree_fuel. apply (steps_size _ (fun n => ret (rounds n))). intros. stp. Defined.
#[global] Hint Resolve st_tree_fuel : stdb.
Lemma st_cell_fuel : forall b0 T0 , steps b0 (@cell_fuel T0 ).
Proof. intros. unfold cell_fuel. apply (steps_size _ (fun n => ret (S (S n)))). intros. stp. Defined.
#[global] Hint Resolve st_cell_fuel : stdb.
Lemma st_minimum_loop : forall b0 T0 x0 x1, steps b0 (@minimum_loop T0 x0 x1).
Proof. intros. revert x1. induction x0 as [|? IH]; intros; cbn [minimum_loop]; stpr IH. Defined.
#[global] Hint Resolve st_minimum_loop : stdb.
Lemma st_s_minimum : forall b0 T0 x0 x1 x2, steps b0 (@s_minimum T0 x0 x1 x2).
Proof. intros. unfold s_minimum. stp. Defined.
#[global] Hint Resolve st_s_minimum : stdb.
Lemma st_maximum_loop : forall b0 T0 x0 x1, steps b0 (@maximum_loop T0 x0 x1).
Proof. intros. revert x1. induction x0 as [|? IH]; intros; cbn [maximum_loop]; stpr IH. Defined.
#[global] Hint Resolve st_maximum_loop : stdb.
Lemma st_s_maximum : forall b0 T0 x0 x1 x2, steps b0 (@s_maximum T0 x0 x1 x2).
Proof. intros. unfold s_maximum. stp. Defined.
#[global] Hint Resolve st_s_maximum : stdb.
Lemma st_inc_loop : forall b0 T0 x0 x1 x2, steps b0 (@inc_loop T0 x0 x1 x2).
Proof. intros. revert x1 x2. induction x0 as [|? IH]; intros; cbn [inc_loop]; stpr IH. Defined.
#[global] Hint Resolve st_inc_loop : stdb.
Lemma st_rb_increment : forall b0 T0 x0 x1, steps b0 (@rb_increment T0 x0 x1).
Proof. intros. unfold rb_increment. stp. Defined.
#[global] Hint Resolve st_rb_increment : stdb.
Lemma st_dec_loop : forall b0 T0 x0 x1 x2, steps b0 (@dec_loop T0 x0 x1 x2).
Proof. intros. revert x1 x2. induction x0 as [|? IH]; intros; cbn [dec_loop]; stpr IH. Defined.
#[global] Hint Resolve st_dec_loop : stdb.
Lemma st_rb_decrement : forall b0 T0 x0 x1, steps b0 (@rb_decrement T0 x0 x1).
Proof. intros. unfold rb_decrement. stp. Defined.
#[global] Hint Resolve st_rb_decrement : stdb.
Lemma st_rotate_left : forall T0 x0 x1, steps false (@rotate_left T0 x0 x1).
Proof. intros. unfold rotate_left. stp. Defined.
#[global] Hint Resolve st_rotate_left : stdb.
Lemma st_rotate_right : forall T0 x0 x1, steps false (@rotate_right T0 x0 x1).
Proof. intros. unfold rotate_right. stp. Defined.
#[global] Hint Resolve st_rotate_right : stdb.
Lemma st_ins_loop : forall T0 x0 x1 x2, steps false (@ins_loop T0 x0 x1 x2).
Proof. intros. revert x1 x2. induction x0 as [|? IH]; intros; cbn [ins_loop]; stpr IH. Defined.
#[global] Hint Resolve st_ins_loop : stdb.
Lemma st_ins_link : forall T0 x0 x1 x2 x3, steps false (@ins_link T0 x0 x1 x2 x3).
Proof. intros. unfold ins_link. stp. Defined.
#[global] Hint Resolve st_ins_link : stdb.
Lemma st_insert_and_rebalance : forall T0 x0 x1 x2 x3 x4, steps false (@insert_and_rebalance T0 x0 x1 x2 x3 x4).
Proof. intros. unfold insert_and_rebalance. stp. Defined.
#[global] Hint Resolve st_insert_and_rebalance : stdb.
Lemma st_erase_unlink : forall T0 x0 x1 x2 x3, steps false (@erase_unlink T0 x0 x1 x2 x3).
Proof. intros. unfold erase_unlink. stp. Defined.
#[global] Hint Resolve st_erase_unlink : stdb.
Lemma st_erase_loop : forall T0 x0 x1 x2 x3, steps false (@erase_loop T0 x0 x1 x2 x3).
Proof. intros. revert x1 x2 x3. induction x0 as [|? IH]; intros; cbn [erase_loop]; stpr IH. Defined.
#[global] Hint Resolve st_erase_loop : stdb.
Lemma st_rebalance_for_erase : forall T0 x0 x1 x2 x3, steps false (@rebalance_for_erase T0 x0 x1 x2 x3).
Proof. intros. unfold rebalance_for_erase. stp. Defined.
#[global] Hint Resolve st_rebalance_for_erase : stdb.
Lemma st_get_count : forall b0 T0 x0, steps b0 (@get_count T0 x0).
Proof. intros. unfold get_count. stp. Defined.
#[global] Hint Resolve st_get_count : stdb.
Lemma st_set_count : forall T0 x0 x1, steps false (@set_count T0 x0 x1).
Proof. intros. unfold set_count. stp. Defined.
#[global] Hint Resolve st_set_count : stdb.
Lemma st_tset_new : forall T0 x0, steps false (@tset_new T0 x0).
Proof. intros. unfold tset_new. stp. Defined.
#[global] Hint Resolve st_tset_new : stdb.
Lemma st_t_begin : forall b0 T0 x0, steps b0 (@t_begin T0 x0).
Proof. intros. unfold t_begin. stp. Defined.
#[global] Hint Resolve st_t_begin : stdb.
Lemma st_t_empty : forall b0 T0 x0, steps b0 (@t_empty T0 x0).
Proof. intros. unfold t_empty. stp. Defined.
#[global] Hint Resolve st_t_empty : stdb.
Lemma st_t_size : forall b0 T0 x0, steps b0 (@t_size T0 x0).
Proof. intros. unfold t_size. stp. Defined.
#[global] Hint Resolve st_t_size : stdb.
Lemma st_erase_sub : forall T0 x0 x1 x2, steps false (@erase_sub T0 x0 x1 x2).
Proof. intros. revert x1 x2. induction x0 as [|? IH]; intros; cbn [erase_sub]; stpr IH. Defined.
#[global] Hint Resolve st_erase_sub : stdb.
Lemma st_m_erase : forall T0 x0 x1 x2, steps false (@m_erase T0 x0 x1 x2).
Proof. intros. unfold m_erase. stp. Defined.
#[global] Hint Resolve st_m_erase : stdb.
Lemma st_t_clear : forall T0 x0 x1, steps false (@t_clear T0 x0 x1).
Proof. intros. unfold t_clear. stp. Defined.
#[global] Hint Resolve st_t_clear : stdb.
Lemma st_t_destroy : forall T0 x0 x1, steps false (@t_destroy T0 x0 x1).
Proof. intros. unfold t_destroy. stp. Defined.
#[global] Hint Resolve st_t_destroy : stdb.
Lemma st_lower_loop : forall b0 T0 x0 x1 x2 x3 x4, steps b0 (@lower_loop T0 x0 x1 x2 x3 x4).
Proof. intros. revert x2 x3 x4. induction x1 as [|? IH]; intros; cbn [lower_loop]; stpr IH. Defined.
#[global] Hint Resolve st_lower_loop : stdb.
Lemma st_m_lower_bound : forall b0 T0 x0 x1 x2 x3 x4, steps b0 (@m_lower_bound T0 x0 x1 x2 x3 x4).
Proof. intros. unfold m_lower_bound. stp. Defined.
#[global] Hint Resolve st_m_lower_bound : stdb.
Lemma st_lower_bound : forall b0 T0 x0 x1 x2 x3, steps b0 (@lower_bound T0 x0 x1 x2 x3).
Proof. intros. unfold lower_bound. stp. Defined.
#[global] Hint Resolve st_lower_bound : stdb.
Lemma st_upper_loop : forall b0 T0 x0 x1 x2 x3 x4, steps b0 (@upper_loop T0 x0 x1 x2 x3 x4).
Proof. intros. revert x2 x3 x4. induction x1 as [|? IH]; intros; cbn [upper_loop]; stpr IH. Defined.
#[global] Hint Resolve st_upper_loop : stdb.
Lemma st_m_upper_bound : forall b0 T0 x0 x1 x2 x3 x4, steps b0 (@m_upper_bound T0 x0 x1 x2 x3 x4).
Proof. intros. unfold m_upper_bound. stp. Defined.
#[global] Hint Resolve st_m_upper_bound : stdb.
Lemma st_upper_bound : forall b0 T0 x0 x1 x2 x3, steps b0 (@upper_bound T0 x0 x1 x2 x3).
Proof. intros. unfold upper_bound. stp. Defined.
#[global] Hint Resolve st_upper_bound : stdb.
Lemma st_equal_range_loop : forall b0 T0 x0 x1 x2 x3 x4 x5, steps b0 (@equal_range_loop T0 x0 x1 x2 x3 x4 x5).
Proof. intros. revert x3 x4 x5. induction x2 as [|? IH]; intros; cbn [equal_range_loop]; stpr IH. Defined.
#[global] Hint Resolve st_equal_range_loop : stdb.
Lemma st_equal_range : forall b0 T0 x0 x1 x2 x3, steps b0 (@equal_range T0 x0 x1 x2 x3).
Proof. intros. unfold equal_range. stp. Defined.
#[global] Hint Resolve st_equal_range : stdb.
Lemma st_t_find : forall b0 T0 x0 x1 x2 x3, steps b0 (@t_find T0 x0 x1 x2 x3).
Proof. intros. unfold t_find. stp. Defined.
#[global] Hint Resolve st_t_find : stdb.
Lemma st_distance : forall b0 T0 x0 x1 x2 x3, steps b0 (@distance T0 x0 x1 x2 x3).
Proof. intros. revert x2 x3. induction x1 as [|? IH]; intros; cbn [distance]; stpr IH. Defined.
#[global] Hint Resolve st_distance : stdb.
Lemma st_t_count : forall b0 T0 x0 x1 x2 x3, steps b0 (@t_count T0 x0 x1 x2 x3).
Proof. intros. unfold t_count. stp. Defined.
#[global] Hint Resolve st_t_count : stdb.
Lemma st_unique_pos_loop : forall b0 T0 x0 x1 x2 x3 x4 x5, steps b0 (@unique_pos_loop T0 x0 x1 x2 x3 x4 x5).
Proof. intros. revert x2 x3 x4 x5. induction x1 as [|? IH]; intros; cbn [unique_pos_loop]; stpr IH. Defined.
#[global] Hint Resolve st_unique_pos_loop : stdb.
Lemma st_insert_unique_pos : forall b0 T0 x0 x1 x2 x3, steps b0 (@insert_unique_pos T0 x0 x1 x2 x3).
Proof. intros. unfold insert_unique_pos. stp. Defined.
#[global] Hint Resolve st_insert_unique_pos : stdb.
Lemma st_m_insert : forall T0 x0 x1 x2 x3 x4 x5 x6, steps false (@m_insert T0 x0 x1 x2 x3 x4 x5 x6).
Proof. intros. unfold m_insert. stp. Defined.
#[global] Hint Resolve st_m_insert : stdb.
Lemma st_insert_unique : forall T0 x0 x1 x2 x3 x4, steps false (@insert_unique T0 x0 x1 x2 x3 x4).
Proof. intros. unfold insert_unique. stp. Defined.
#[global] Hint Resolve st_insert_unique : stdb.
Lemma st_insert_hint_unique_pos : forall b0 T0 x0 x1 x2 x3 x4, steps b0 (@insert_hint_unique_pos T0 x0 x1 x2 x3 x4).
Proof. intros. unfold insert_hint_unique_pos. stp. Defined.
#[global] Hint Resolve st_insert_hint_unique_pos : stdb.
Lemma st_insert_unique_at : forall T0 x0 x1 x2 x3 x4 x5, steps false (@insert_unique_at T0 x0 x1 x2 x3 x4 x5).
Proof. intros. unfold insert_unique_at. stp. Defined.
#[global] Hint Resolve st_insert_unique_at : stdb.
Lemma st_insert_unique_range : forall T0 x0 x1 x2 x3 x4, steps false (@insert_unique_range T0 x0 x1 x2 x3 x4).
Proof. intros. revert x3. induction x4 as [|? ? IH]; intros; cbn [insert_unique_range]; stpr IH. Defined.
#[global] Hint Resolve st_insert_unique_range : stdb.
Lemma st_m_insert_node : forall T0 x0 x1 x2 x3 x4 x5, steps false (@m_insert_node T0 x0 x1 x2 x3 x4 x5).
Proof. intros. unfold m_insert_node. stp. Defined.
#[global] Hint Resolve st_m_insert_node : stdb.
Lemma st_emplace_unique : forall T0 x0 x1 x2 x3 x4, steps false (@emplace_unique T0 x0 x1 x2 x3 x4).
Proof. intros. unfold emplace_unique. stp. Defined.
#[global] Hint Resolve st_emplace_unique : stdb.
Lemma st_emplace_hint_unique : forall T0 x0 x1 x2 x3 x4 x5, steps false (@emplace_hint_unique T0 x0 x1 x2 x3 x4 x5).
Proof. intros. unfold emplace_hint_unique. stp. Defined.
#[global] Hint Resolve st_emplace_hint_unique : stdb.
Lemma st_erase_aux : forall T0 x0 x1 x2 x3, steps false (@erase_aux T0 x0 x1 x2 x3).
Proof. intros. unfold erase_aux. stp. Defined.
#[global] Hint Resolve st_erase_aux : stdb.
Lemma st_t_erase : forall T0 x0 x1 x2 x3, steps false (@t_erase T0 x0 x1 x2 x3).
Proof. intros. unfold t_erase. stp. Defined.
#[global] Hint Resolve st_t_erase : stdb.
Lemma st_erase_range_loop : forall T0 x0 x1 x2 x3 x4 x5, steps false (@erase_range_loop T0 x0 x1 x2 x3 x4 x5).
Proof. intros. revert x3 x4 x5. induction x2 as [|? IH]; intros; cbn [erase_range_loop]; stpr IH. Defined.
#[global] Hint Resolve st_erase_range_loop : stdb.
Lemma st_t_erase_range : forall T0 x0 x1 x2 x3 x4, steps false (@t_erase_range T0 x0 x1 x2 x3 x4).
Proof. intros. unfold t_erase_range. stp. Defined.
#[global] Hint Resolve st_t_erase_range : stdb.
Lemma st_t_erase_key : forall T0 x0 x1 x2 x3 x4, steps false (@t_erase_key T0 x0 x1 x2 x3 x4).
Proof. intros. unfold t_erase_key. stp. Defined.
#[global] Hint Resolve st_t_erase_key : stdb.
Lemma st_t_erase_keys : forall T0 x0 x1 x2 x3 x4, steps false (@t_erase_keys T0 x0 x1 x2 x3 x4).
Proof. intros. revert x3. induction x4 as [|? ? IH]; intros; cbn [t_erase_keys]; stpr IH. Defined.
#[global] Hint Resolve st_t_erase_keys : stdb.
Lemma st_clone_node : forall T0 x0 x1 x2, steps false (@clone_node T0 x0 x1 x2).
Proof. intros. unfold clone_node. stp. Defined.
#[global] Hint Resolve st_clone_node : stdb.
Lemma st_m_copy : forall T0 x0 x1 x2 x3 x4 x5, steps false (@m_copy T0 x0 x1 x2 x3 x4 x5).
Proof.
  intros T0 LL x0 x1. enough (forall x2 x3, (forall x4, steps false (m_copy x0 x1 x2 x3 x4)) * (forall x4 x5, steps false (copy_loop x0 x1 x2 x3 x4 x5))) as H; [intros; apply H|].
  induction x1 as [|n IH]; intros x2 x3; (split; intros; [cbn [m_copy]|cbn [copy_loop]]);
    repeat (intros; first [solve [eauto 2 with stdb nocore]|apply (fst (IH _ _))|apply (snd (IH _ _))|apply steps_bind|st_split]).
Defined.
#[global] Hint Resolve st_m_copy : stdb.
Lemma st_t_copy : forall T0 x0 x1 x2 x3, steps false (@t_copy T0 x0 x1 x2 x3).
Proof. intros. unfold t_copy. stp. Defined.
#[global] Hint Resolve st_t_copy : stdb.
Lemma st_move_data : forall T0 x0 x1, steps false (@move_data T0 x0 x1).
Proof. intros. unfold move_data. stp. Defined.
#[global] Hint Resolve st_move_data : stdb.
Lemma st_t_move_ctor : forall T0 x0, steps false (@t_move_ctor T0 x0).
Proof. intros. unfold t_move_ctor. stp. Defined.
#[global] Hint Resolve st_t_move_ctor : stdb.
Lemma st_t_move_assign : forall T0 x0 x1 x2, steps false (@t_move_assign T0 x0 x1 x2).
Proof. intros. unfold t_move_assign. stp. Defined.
#[global] Hint Resolve st_t_move_assign : stdb.
Lemma st_t_swap : forall T0 x0 x1, steps false (@t_swap T0 x0 x1).
Proof. intros. unfold t_swap. stp. Defined.
#[global] Hint Resolve st_t_swap : stdb.
Lemma st_t_step_iter : forall b0 T0 x0 x1 x2 x3, steps b0 (@t_step_iter T0 x0 x1 x2 x3).
Proof. intros. revert x1 x2. induction x3 as [|? IH]; intros; cbn [t_step_iter]; stpr IH. Defined.
#[global] Hint Resolve st_t_step_iter : stdb.
Lemma st_t_iter_at : forall b0 T0 x0 x1 x2, steps b0 (@t_iter_at T0 x0 x1 x2).
Proof. intros. unfold t_iter_at. stp. Defined.
#[global] Hint Resolve st_t_iter_at : stdb.
Lemma st_read_iter : forall b0 T0 x0 x1, steps b0 (@read_iter T0 x0 x1).
Proof. intros. unfold read_iter. stp. Defined.
#[global] Hint Resolve st_read_iter : stdb.
Lemma st_t_walk_loop : forall b0 T0 x0 x1 x2 x3, steps b0 (@t_walk_loop T0 x0 x1 x2 x3).
Proof. intros. revert x2 x3. induction x1 as [|? IH]; intros; cbn [t_walk_loop]; stpr IH. Defined.
#[global] Hint Resolve st_t_walk_loop : stdb.
Lemma st_t_walk : forall b0 T0 x0 x1, steps b0 (@t_walk T0 x0 x1).
Proof. intros. unfold t_walk. stp. Defined.
#[global] Hint Resolve st_t_walk : stdb.
Lemma st_t_rwalk_loop : forall b0 T0 x0 x1 x2 x3, steps b0 (@t_rwalk_loop T0 x0 x1 x2 x3).
Proof. intros. revert x2 x3. induction x1 as [|? IH]; intros; cbn [t_rwalk_loop]; stpr IH. Defined.
#[global] Hint Resolve st_t_rwalk_loop : stdb.
Lemma st_t_rwalk : forall b0 T0 x0 x1, steps b0 (@t_rwalk T0 x0 x1).
Proof. intros. unfold t_rwalk. stp. Defined.
#[global] Hint Resolve st_t_rwalk : stdb.
Lemma st_t_get_arg : forall b0 T0 x0 x1 x2, steps b0 (@t_get_arg T0 x0 x1 x2).
Proof. intros. unfold t_get_arg. stp. Defined.
#[global] Hint Resolve st_t_get_arg : stdb.
Lemma st_exec_sop : forall T0 x0 x1 x2 x3 x4, steps false (@exec_sop T0 x0 x1 x2 x3 x4).
Proof. intros. unfold exec_sop, with_set, with_targ. stp. Defined.
#[global] Hint Resolve st_exec_sop : stdb.
