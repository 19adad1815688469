(** * Which errors list operations report *)
From Verif Require Export Errors ListHistSpec.


Lemma sh_get_next : forall T0 x0, silent (@get_next T0 x0).
Proof. intros. unfold get_next. sh. Qed.
#[global] Hint Resolve sh_get_next : shdb.
Lemma sh_get_prev : forall T0 x0, silent (@get_prev T0 x0).
Proof. intros. unfold get_prev. sh. Qed.
#[global] Hint Resolve sh_get_prev : shdb.
Lemma sh_set_next : forall T0 x0 x1, silent (@set_next T0 x0 x1).
Proof. intros. unfold set_next. sh. Qed.
#[global] Hint Resolve sh_set_next : shdb.
Lemma sh_set_prev : forall T0 x0 x1, silent (@set_prev T0 x0 x1).
Proof. intros. unfold set_prev. sh. Qed.
#[global] Hint Resolve sh_set_prev : shdb.
Lemma sh_check_node : forall T0 x0 x1, silent (@check_node T0 x0 x1).
Proof. intros. unfold check_node. sh. Qed.
#[global] Hint Resolve sh_check_node : shdb.
Lemma sh_lplace : forall T0 x0 x1, silent (@lplace T0 x0 x1).
Proof. intros. unfold lplace. sh. Qed.
#[global] Hint Resolve sh_lplace : shdb.
Lemma sh_lread : forall T0 x0, silent (@lread T0 x0).
Proof. intros. unfold lread. sh. Qed.
#[global] Hint Resolve sh_lread : shdb.
Lemma sh_loverwrite : forall T0 x0 x1, silent (@loverwrite T0 x0 x1).
Proof. intros. unfold loverwrite. sh. Qed.
#[global] Hint Resolve sh_loverwrite : shdb.
Lemma sh_destroy_value : forall T0 x0, silent (@destroy_value T0 x0).
Proof. intros. unfold destroy_value. sh. Qed.
#[global] Hint Resolve sh_destroy_value : shdb.
Lemma sh_read_larg : forall T0 x0, silent (@read_larg T0 x0).
Proof. intros. unfold read_larg. sh. Qed.
#[global] Hint Resolve sh_read_larg : shdb.
Lemma sh_deallocate_node : forall T0 x0 x1, silent (@deallocate_node T0 x0 x1).
Proof. intros. unfold deallocate_node. sh. Qed.
#[global] Hint Resolve sh_deallocate_node : shdb.
Lemma sh_create_node (L : error -> Prop) : forall T0 x0 x1 x2, honest L (@create_node T0 x0 x1 x2).
Proof. intros. unfold create_node. sh. Qed.
#[global] Hint Resolve sh_create_node : shdb.
Lemma sh_init_empty : forall T0 x0 x1, silent (@init_empty T0 x0 x1).
Proof. intros. unfold init_empty. sh. Qed.
#[global] Hint Resolve sh_init_empty : shdb.
Lemma sh_inject : forall T0 x0 x1 x2, silent (@inject T0 x0 x1 x2).
Proof. intros. unfold inject. sh. Qed.
#[global] Hint Resolve sh_inject : shdb.
Lemma sh_node_remove : forall T0 x0 x1, silent (@node_remove T0 x0 x1).
Proof. intros. unfold node_remove. sh. Qed.
#[global] Hint Resolve sh_node_remove : shdb.
Lemma sh_transfer : forall T0 x0 x1 x2 x3, silent (@transfer T0 x0 x1 x2 x3).
Proof. intros. unfold transfer. sh. Qed.
#[global] Hint Resolve sh_transfer : shdb.
Lemma sh_swap_nodes : forall T0 x0 x1 x2, silent (@swap_nodes T0 x0 x1 x2).
Proof. intros. unfold swap_nodes. sh. Qed.
#[global] Hint Resolve sh_swap_nodes : shdb.
Lemma sh_mk_iter : forall T0 x0 x1, silent (@mk_iter T0 x0 x1).
Proof. intros. unfold mk_iter. sh. Qed.
#[global] Hint Resolve sh_mk_iter : shdb.
Lemma sh_it_deref : forall T0 x0 x1, silent (@it_deref T0 x0 x1).
Proof. intros. unfold it_deref. sh. Qed.
#[global] Hint Resolve sh_it_deref : shdb.
Lemma sh_it_inc : forall T0 x0 x1, silent (@it_inc T0 x0 x1).
Proof. intros. unfold it_inc. sh. Qed.
#[global] Hint Resolve sh_it_inc : shdb.
Lemma sh_it_dec : forall T0 x0 x1, silent (@it_dec T0 x0 x1).
Proof. intros. unfold it_dec. sh. Qed.
#[global] Hint Resolve sh_it_dec : shdb.
Lemma sh_it_eq : forall T0 x0 x1 x2, silent (@it_eq T0 x0 x1 x2).
Proof. intros. unfold it_eq. sh. Qed.
#[global] Hint Resolve sh_it_eq : shdb.
Lemma sh_it_node : forall T0 x0 x1, silent (@it_node T0 x0 x1).
Proof. intros. unfold it_node. sh. Qed.
#[global] Hint Resolve sh_it_node : shdb.
Lemma sh_heap_fuel : forall T0 , silent (@heap_fuel T0 ).
Proof. intros. unfold heap_fuel. sh. Qed.
#[global] Hint Resolve sh_heap_fuel : shdb.
Lemma sh_lst_new : forall T0 x0 x1, silent (@lst_new T0 x0 x1).
Proof. intros. unfold lst_new. sh. Qed.
#[global] Hint Resolve sh_lst_new : shdb.
Lemma sh_destroy_loop : forall T0 x0 x1 x2 x3, silent (@destroy_loop T0 x0 x1 x2 x3).
Proof. intros. revert x1 x2 x3. induction x0 as [|? IH]; intros; cbn [destroy_loop]; shr IH. Qed.
#[global] Hint Resolve sh_destroy_loop : shdb.
Lemma sh_destroy_list_content : forall T0 x0, silent (@destroy_list_content T0 x0).
Proof. intros. unfold destroy_list_content. sh. Qed.
#[global] Hint Resolve sh_destroy_list_content : shdb.
Lemma sh_lst_destroy : forall T0 x0, silent (@lst_destroy T0 x0).
Proof. intros. unfold lst_destroy. sh. Qed.
#[global] Hint Resolve sh_lst_destroy : shdb.
Lemma sh_lst_clear : forall T0 x0 x1, silent (@lst_clear T0 x0 x1).
Proof. intros. unfold lst_clear. sh. Qed.
#[global] Hint Resolve sh_lst_clear : shdb.
Lemma sh_lst_swap : forall T0 x0 x1 x2, silent (@lst_swap T0 x0 x1 x2).
Proof. intros. unfold lst_swap. sh. Qed.
#[global] Hint Resolve sh_lst_swap : shdb.
Lemma sh_lst_move_ctor : forall T0 x0 x1, silent (@lst_move_ctor T0 x0 x1).
Proof. intros. unfold lst_move_ctor. sh. Qed.
#[global] Hint Resolve sh_lst_move_ctor : shdb.
Lemma sh_lst_move_assign : forall T0 x0 x1 x2, silent (@lst_move_assign T0 x0 x1 x2).
Proof. intros. unfold lst_move_assign. sh. Qed.
#[global] Hint Resolve sh_lst_move_assign : shdb.
Lemma sh_lst_begin : forall T0 x0 x1, silent (@lst_begin T0 x0 x1).
Proof. intros. unfold lst_begin. sh. Qed.
#[global] Hint Resolve sh_lst_begin : shdb.
Lemma sh_lst_end : forall T0 x0 x1, silent (@lst_end T0 x0 x1).
Proof. intros. unfold lst_end. sh. Qed.
#[global] Hint Resolve sh_lst_end : shdb.
Lemma sh_lst_empty : forall T0 x0, silent (@lst_empty T0 x0).
Proof. intros. unfold lst_empty. sh. Qed.
#[global] Hint Resolve sh_lst_empty : shdb.
Lemma sh_distance_loop : forall T0 x0 x1 x2 x3 x4, silent (@distance_loop T0 x0 x1 x2 x3 x4).
Proof. intros. revert x2 x3 x4. induction x1 as [|? IH]; intros; cbn [distance_loop]; shr IH. Qed.
#[global] Hint Resolve sh_distance_loop : shdb.
Lemma sh_lst_size : forall T0 x0 x1, silent (@lst_size T0 x0 x1).
Proof. intros. unfold lst_size. sh. Qed.
#[global] Hint Resolve sh_lst_size : shdb.
Lemma sh_lst_front : forall T0 x0 x1, silent (@lst_front T0 x0 x1).
Proof. intros. unfold lst_front. sh. Qed.
#[global] Hint Resolve sh_lst_front : shdb.
Lemma sh_lst_back : forall T0 x0 x1, silent (@lst_back T0 x0 x1).
Proof. intros. unfold lst_back. sh. Qed.
#[global] Hint Resolve sh_lst_back : shdb.
Lemma sh_walk_loop : forall T0 x0 x1 x2 x3, silent (@walk_loop T0 x0 x1 x2 x3).
Proof. intros. revert x2 x3. induction x1 as [|? IH]; intros; cbn [walk_loop]; shr IH. Qed.
#[global] Hint Resolve sh_walk_loop : shdb.
Lemma sh_lst_walk : forall T0 x0 x1, silent (@lst_walk T0 x0 x1).
Proof. intros. unfold lst_walk. sh. Qed.
#[global] Hint Resolve sh_lst_walk : shdb.
Lemma sh_rwalk_loop : forall T0 x0 x1 x2 x3, silent (@rwalk_loop T0 x0 x1 x2 x3).
Proof. intros. revert x2 x3. induction x1 as [|? IH]; intros; cbn [rwalk_loop]; shr IH. Qed.
#[global] Hint Resolve sh_rwalk_loop : shdb.
Lemma sh_lst_rwalk : forall T0 x0 x1, silent (@lst_rwalk T0 x0 x1).
Proof. intros. unfold lst_rwalk. sh. Qed.
#[global] Hint Resolve sh_lst_rwalk : shdb.
Lemma sh_lst_emplace (L : error -> Prop) : forall T0 x0 x1 x2 x3, honest L (@lst_emplace T0 x0 x1 x2 x3).
Proof. intros. unfold lst_emplace. sh. Qed.
#[global] Hint Resolve sh_lst_emplace : shdb.
Lemma sh_lst_insert (L : error -> Prop) : forall T0 x0 x1 x2 x3, honest L (@lst_insert T0 x0 x1 x2 x3).
Proof. intros. unfold lst_insert. sh. Qed.
#[global] Hint Resolve sh_lst_insert : shdb.
Lemma sh_lst_insert_n (L : error -> Prop) : forall T0 x0 x1 x2 x3 x4, honest L (@lst_insert_n T0 x0 x1 x2 x3 x4).
Proof. intros. revert x1 x2 x4. induction x3 as [|? IH]; intros; cbn [lst_insert_n]; shr IH. Qed.
#[global] Hint Resolve sh_lst_insert_n : shdb.
Lemma sh_lst_insert_range (L : error -> Prop) : forall T0 x0 x1 x2 x3, honest L (@lst_insert_range T0 x0 x1 x2 x3).
Proof. intros. revert x1 x2. induction x3 as [|? ? IH]; intros; cbn [lst_insert_range]; shr IH. Qed.
#[global] Hint Resolve sh_lst_insert_range : shdb.
Lemma sh_lst_erase : forall T0 x0 x1 x2, silent (@lst_erase T0 x0 x1 x2).
Proof. intros. unfold lst_erase. sh. Qed.
#[global] Hint Resolve sh_lst_erase : shdb.
Lemma sh_erase_range_loop : forall T0 x0 x1 x2 x3 x4, silent (@erase_range_loop T0 x0 x1 x2 x3 x4).
Proof. intros. revert x2 x3 x4. induction x1 as [|? IH]; intros; cbn [erase_range_loop]; shr IH. Qed.
#[global] Hint Resolve sh_erase_range_loop : shdb.
Lemma sh_lst_erase_range : forall T0 x0 x1 x2 x3, silent (@lst_erase_range T0 x0 x1 x2 x3).
Proof. intros. unfold lst_erase_range. sh. Qed.
#[global] Hint Resolve sh_lst_erase_range : shdb.
Lemma sh_lst_push_back (L : error -> Prop) : forall T0 x0 x1 x2, honest L (@lst_push_back T0 x0 x1 x2).
Proof. intros. unfold lst_push_back. sh. Qed.
#[global] Hint Resolve sh_lst_push_back : shdb.
Lemma sh_lst_push_front (L : error -> Prop) : forall T0 x0 x1 x2, honest L (@lst_push_front T0 x0 x1 x2).
Proof. intros. unfold lst_push_front. sh. Qed.
#[global] Hint Resolve sh_lst_push_front : shdb.
Lemma sh_lst_pop_back : forall T0 x0 x1, silent (@lst_pop_back T0 x0 x1).
Proof. intros. unfold lst_pop_back. sh. Qed.
#[global] Hint Resolve sh_lst_pop_back : shdb.
Lemma sh_lst_pop_front : forall T0 x0 x1, silent (@lst_pop_front T0 x0 x1).
Proof. intros. unfold lst_pop_front. sh. Qed.
#[global] Hint Resolve sh_lst_pop_front : shdb.
Lemma sh_push_n_loop (L : error -> Prop) : forall T0 x0 x1 x2 x3, honest L (@push_n_loop T0 x0 x1 x2 x3).
Proof. intros. revert x1 x3. induction x2 as [|? IH]; intros; cbn [push_n_loop]; shr IH. Qed.
#[global] Hint Resolve sh_push_n_loop : shdb.
Lemma sh_lst_assign_n (L : error -> Prop) : forall T0 x0 x1 x2 x3, honest L (@lst_assign_n T0 x0 x1 x2 x3).
Proof. intros. unfold lst_assign_n. sh. Qed.
#[global] Hint Resolve sh_lst_assign_n : shdb.
Lemma sh_push_args_loop (L : error -> Prop) : forall T0 x0 x1 x2, honest L (@push_args_loop T0 x0 x1 x2).
Proof. intros. revert x1. induction x2 as [|? ? IH]; intros; cbn [push_args_loop]; shr IH. Qed.
#[global] Hint Resolve sh_push_args_loop : shdb.
Lemma sh_lst_assign_args (L : error -> Prop) : forall T0 x0 x1 x2, honest L (@lst_assign_args T0 x0 x1 x2).
Proof. intros. unfold lst_assign_args. sh. Qed.
#[global] Hint Resolve sh_lst_assign_args : shdb.
Lemma sh_push_nodes_loop (L : error -> Prop) : forall T0 x0 x1 x2 x3 x4, honest L (@push_nodes_loop T0 x0 x1 x2 x3 x4).
Proof. intros. revert x2 x3 x4. induction x1 as [|? IH]; intros; cbn [push_nodes_loop]; shr IH. Qed.
#[global] Hint Resolve sh_push_nodes_loop : shdb.
Lemma sh_lst_assign_nodes (L : error -> Prop) : forall T0 x0 x1 x2 x3, honest L (@lst_assign_nodes T0 x0 x1 x2 x3).
Proof. intros. unfold lst_assign_nodes. sh. Qed.
#[global] Hint Resolve sh_lst_assign_nodes : shdb.
Lemma sh_lst_copy (L : error -> Prop) : forall T0 x0 x1 x2, honest L (@lst_copy T0 x0 x1 x2).
Proof. intros. unfold lst_copy. sh. Qed.
#[global] Hint Resolve sh_lst_copy : shdb.
Lemma sh_lst_transfer : forall T0 x0 x1 x2 x3, silent (@lst_transfer T0 x0 x1 x2 x3).
Proof. intros. unfold lst_transfer. sh. Qed.
#[global] Hint Resolve sh_lst_transfer : shdb.
Lemma sh_merge_loop : forall T0 x0 x1 x2 x3 x4 x5 x6, silent (@merge_loop T0 x0 x1 x2 x3 x4 x5 x6).
Proof. intros. revert x2 x3 x4 x5 x6. induction x1 as [|? IH]; intros; cbn [merge_loop]; shr IH. Qed.
#[global] Hint Resolve sh_merge_loop : shdb.
Lemma sh_lst_merge : forall T0 x0 x1 x2 x3, silent (@lst_merge T0 x0 x1 x2 x3).
Proof. intros. unfold lst_merge. sh. Qed.
#[global] Hint Resolve sh_lst_merge : shdb.
Lemma sh_lst_splice : forall T0 x0 x1 x2 x3, silent (@lst_splice T0 x0 x1 x2 x3).
Proof. intros. unfold lst_splice. sh. Qed.
#[global] Hint Resolve sh_lst_splice : shdb.
Lemma sh_lst_splice_one : forall T0 x0 x1 x2, silent (@lst_splice_one T0 x0 x1 x2).
Proof. intros. unfold lst_splice_one. sh. Qed.
#[global] Hint Resolve sh_lst_splice_one : shdb.
Lemma sh_lst_splice_range : forall T0 x0 x1 x2 x3, silent (@lst_splice_range T0 x0 x1 x2 x3).
Proof. intros. unfold lst_splice_range. sh. Qed.
#[global] Hint Resolve sh_lst_splice_range : shdb.
Lemma sh_bin : forall T0 x0 x1, silent (@bin T0 x0 x1).
Proof. intros. unfold bin. sh. Qed.
#[global] Hint Resolve sh_bin : shdb.
Lemma sh_new_lists : forall T0 x0 x1, silent (@new_lists T0 x0 x1).
Proof. intros. induction x1 as [|? IH]; intros; cbn [new_lists]; shr IH. Qed.
#[global] Hint Resolve sh_new_lists : shdb.
Lemma sh_destroy_lists : forall T0 x0, silent (@destroy_lists T0 x0).
Proof. intros. induction x0 as [|? ? IH]; intros; cbn [destroy_lists]; shr IH. Qed.
#[global] Hint Resolve sh_destroy_lists : shdb.
Lemma sh_carry_loop : forall T0 x0 x1 x2 x3 x4 x5 x6, silent (@carry_loop T0 x0 x1 x2 x3 x4 x5 x6).
Proof. intros. revert x2 x3 x4 x5 x6. induction x1 as [|? IH]; intros; cbn [carry_loop]; shr IH. Qed.
#[global] Hint Resolve sh_carry_loop : shdb.
Lemma sh_sort_loop : forall T0 x0 x1 x2 x3 x4 x5 x6, silent (@sort_loop T0 x0 x1 x2 x3 x4 x5 x6).
Proof. intros. revert x2 x3 x4 x5 x6. induction x1 as [|? IH]; intros; cbn [sort_loop]; shr IH. Qed.
#[global] Hint Resolve sh_sort_loop : shdb.
Lemma sh_fold_loop : forall T0 x0 x1 x2 x3 x4 x5, silent (@fold_loop T0 x0 x1 x2 x3 x4 x5).
Proof. intros. revert x2 x3 x4 x5. induction x1 as [|? IH]; intros; cbn [fold_loop]; shr IH. Qed.
#[global] Hint Resolve sh_fold_loop : shdb.
Lemma sh_lst_sort : forall T0 x0 x1 x2, silent (@lst_sort T0 x0 x1 x2).
Proof. intros. unfold lst_sort. sh. Qed.
#[global] Hint Resolve sh_lst_sort : shdb.
Lemma sh_leq_loop : forall T0 x0 x1 x2 x3 x4 x5, silent (@leq_loop T0 x0 x1 x2 x3 x4 x5).
Proof. intros. revert x2 x3 x4 x5. induction x1 as [|? IH]; intros; cbn [leq_loop]; shr IH. Qed.
#[global] Hint Resolve sh_leq_loop : shdb.
Lemma sh_lst_equal : forall T0 x0 x1 x2 x3, silent (@lst_equal T0 x0 x1 x2 x3).
Proof. intros. unfold lst_equal. sh. Qed.
#[global] Hint Resolve sh_lst_equal : shdb.
Lemma sh_lst_two_phase_init (L : error -> Prop) : forall T0 x0 x1 x2, honest L (@lst_two_phase_init T0 x0 x1 x2).
Proof. intros. unfold lst_two_phase_init. sh. Qed.
#[global] Hint Resolve sh_lst_two_phase_init : shdb.
Lemma sh_step_iter : forall T0 x0 x1 x2 x3, silent (@step_iter T0 x0 x1 x2 x3).
Proof. intros. revert x1 x2. induction x3 as [|? IH]; intros; cbn [step_iter]; shr IH. Qed.
#[global] Hint Resolve sh_step_iter : shdb.
Lemma sh_iter_at : forall T0 x0 x1 x2, silent (@iter_at T0 x0 x1 x2).
Proof. intros. unfold iter_at. sh. Qed.
#[global] Hint Resolve sh_iter_at : shdb.
Lemma sh_get_arg : forall T0 x0 x1 x2, silent (@get_arg T0 x0 x1 x2).
Proof. intros. unfold get_arg. sh. Qed.
#[global] Hint Resolve sh_get_arg : shdb.
Lemma sh_exec_lop (L : error -> Prop) : forall T0 x0 x1 x2 x3, honest L (@exec_lop T0 x0 x1 x2 x3).
Proof. intros. unfold exec_lop, with_lst, with_arg. sh. Qed.
#[global] Hint Resolve sh_exec_lop : shdb.
