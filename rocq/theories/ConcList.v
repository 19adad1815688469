(** * List operations as programs of single steps *)
From Verif Require Export Conc ListHistSpec.

Lemma st_get_next : forall b0 T0 x0, steps b0 (@get_next T0 x0).
Proof. intros. unfold get_next. stp. Defined.
#[global] Hint Resolve st_get_next : stdb.
Lemma st_get_prev : forall b0 T0 x0, steps b0 (@get_prev T0 x0).
Proof. intros. unfold get_prev. stp. Defined.
#[global] Hint Resolve st_get_prev : stdb.
Lemma st_set_next : forall T0 x0 x1, steps false (@set_next T0 x0 x1).
Proof. intros. unfold set_next. stp. Defined.
#[global] Hint Resolve st_set_next : stdb.
Lemma st_set_prev : forall T0 x0 x1, steps false (@set_prev T0 x0 x1).
Proof. intros. unfold set_prev. stp. Defined.
#[global] Hint Resolve st_set_prev : stdb.
Lemma st_check_node : forall b0 T0 x0 x1, steps b0 (@check_node T0 x0 x1).
Proof. intros. unfold check_node. stp. Defined.
#[global] Hint Resolve st_check_node : stdb.
Lemma st_lplace : forall T0 x0 x1, steps false (@lplace T0 x0 x1).
Proof. intros. unfold lplace. stp. Defined.
#[global] Hint Resolve st_lplace : stdb.
Lemma st_lread : forall b0 T0 x0, steps b0 (@lread T0 x0).
Proof. intros. unfold lread. stp. Defined.
#[global] Hint Resolve st_lread : stdb.
Lemma st_loverwrite : forall T0 x0 x1, steps false (@loverwrite T0 x0 x1).
Proof. intros. unfold loverwrite. stp. Defined.
#[global] Hint Resolve st_loverwrite : stdb.
Lemma st_destroy_value : forall T0 x0, steps false (@destroy_value T0 x0).
Proof. intros. unfold destroy_value. stp. Defined.
#[global] Hint Resolve st_destroy_value : stdb.
Lemma st_read_larg : forall b0 T0 x0, steps b0 (@read_larg T0 x0).
Proof. intros. unfold read_larg. stp. Defined.
#[global] Hint Resolve st_read_larg : stdb.
Lemma st_deallocate_node : forall T0 x0 x1, steps false (@deallocate_node T0 x0 x1).
Proof. intros. unfold deallocate_node. stp. Defined.
#[global] Hint Resolve st_deallocate_node : stdb.
Lemma st_create_node : forall T0 x0 x1 x2, steps false (@create_node T0 x0 x1 x2).
Proof. intros. unfold create_node. stp. Defined.
#[global] Hint Resolve st_create_node : stdb.
Lemma st_init_empty : forall T0 x0 x1, steps false (@init_empty T0 x0 x1).
Proof. intros. unfold init_empty. stp. Defined.
#[global] Hint Resolve st_init_empty : stdb.
Lemma st_inject : forall T0 x0 x1 x2, steps false (@inject T0 x0 x1 x2).
Proof. intros. unfold inject. stp. Defined.
#[global] Hint Resolve st_inject : stdb.
Lemma st_node_remove : forall T0 x0 x1, steps false (@node_remove T0 x0 x1).
Proof. intros. unfold node_remove. stp. Defined.
#[global] Hint Resolve st_node_remove : stdb.
Lemma st_transfer : forall T0 x0 x1 x2 x3, steps false (@transfer T0 x0 x1 x2 x3).
Proof. intros. unfold transfer. stp. Defined.
#[global] Hint Resolve st_transfer : stdb.
Lemma st_swap_nodes : forall T0 x0 x1 x2, steps false (@swap_nodes T0 x0 x1 x2).
Proof. intros. unfold swap_nodes. stp. Defined.
#[global] Hint Resolve st_swap_nodes : stdb.
Lemma st_mk_iter : forall b0 T0 x0 x1, steps b0 (@mk_iter T0 x0 x1).
Proof. intros. unfold mk_iter. stp. Defined.
#[global] Hint Resolve st_mk_iter : stdb.
Lemma st_it_deref : forall b0 T0 x0 x1, steps b0 (@it_deref T0 x0 x1).
Proof. intros. unfold it_deref. stp. Defined.
#[global] Hint Resolve st_it_deref : stdb.
Lemma st_it_inc : forall b0 T0 x0 x1, steps b0 (@it_inc T0 x0 x1).
Proof. intros. unfold it_inc. stp. Defined.
#[global] Hint Resolve st_it_inc : stdb.
Lemma st_it_dec : forall b0 T0 x0 x1, steps b0 (@it_dec T0 x0 x1).
Proof. intros. unfold it_dec. stp. Defined.
#[global] Hint Resolve st_it_dec : stdb.
Lemma st_it_eq : forall b0 T0 x0 x1 x2, steps b0 (@it_eq T0 x0 x1 x2).
Proof. intros. unfold it_eq. stp. Defined.
#[global] Hint Resolve st_it_eq : stdb.
Lemma st_it_node : forall b0 T0 x0 x1, steps b0 (@it_node T0 x0 x1).
Proof. intros. unfold it_node. stp. Defined.
#[global] Hint Resolve st_it_node : stdb.
Lemma st_heap_fuel : forall b0 T0 , steps b0 (@heap_fuel T0 ).
Proof. intros. unfold heap_fuel. apply (steps_size _ (fun n => ret (S n))). intros. stp. Defined.
#[global] Hint Resolve st_heap_fuel : stdb.
Lemma st_lst_new : forall T0 x0 x1, steps false (@lst_new T0 x0 x1).
Proof. intros. unfold lst_new. stp. Defined.
#[global] Hint Resolve st_lst_new : stdb.
Lemma st_destroy_loop : forall T0 x0 x1 x2 x3, steps false (@destroy_loop T0 x0 x1 x2 x3).
Proof. intros. revert x1 x2 x3. induction x0 as [|? IH]; intros; cbn [destroy_loop]; stpr IH. Defined.
#[global] Hint Resolve st_destroy_loop : stdb.
Lemma st_destroy_list_content : forall T0 x0, steps false (@destroy_list_content T0 x0).
Proof. intros. unfold destroy_list_content. stp. Defined.
#[global] Hint Resolve st_destroy_list_content : stdb.
Lemma st_lst_destroy : forall T0 x0, steps false (@lst_destroy T0 x0).
Proof. intros. unfold lst_destroy. stp. Defined.
#[global] Hint Resolve st_lst_destroy : stdb.
Lemma st_lst_clear : forall T0 x0 x1, steps false (@lst_clear T0 x0 x1).
Proof. intros. unfold lst_clear. stp. Defined.
#[global] Hint Resolve st_lst_clear : stdb.
Lemma st_lst_swap : forall T0 x0 x1 x2, steps false (@lst_swap T0 x0 x1 x2).
Proof. intros. unfold lst_swap. stp. Defined.
#[global] Hint Resolve st_lst_swap : stdb.
Lemma st_lst_move_ctor : forall T0 x0 x1, steps false (@lst_move_ctor T0 x0 x1).
Proof. intros. unfold lst_move_ctor. stp. Defined.
#[global] Hint Resolve st_lst_move_ctor : stdb.
Lemma st_lst_move_assign : forall T0 x0 x1 x2, steps false (@lst_move_assign T0 x0 x1 x2).
Proof. intros. unfold lst_move_assign. stp. Defined.
#[global] Hint Resolve st_lst_move_assign : stdb.
Lemma st_lst_begin : forall b0 T0 x0 x1, steps b0 (@lst_begin T0 x0 x1).
Proof. intros. unfold lst_begin. stp. Defined.
#[global] Hint Resolve st_lst_begin : stdb.
Lemma st_lst_end : forall b0 T0 x0 x1, steps b0 (@lst_end T0 x0 x1).
Proof. intros. unfold lst_end. stp. Defined.
#[global] Hint Resolve st_lst_end : stdb.
Lemma st_lst_empty : forall b0 T0 x0, steps b0 (@lst_empty T0 x0).
Proof. intros. unfold lst_empty. stp. Defined.
#[global] Hint Resolve st_lst_empty : stdb.
Lemma st_distance_loop : forall b0 T0 x0 x1 x2 x3 x4, steps b0 (@distance_loop T0 x0 x1 x2 x3 x4).
Proof. intros. revert x2 x3 x4. induction x1 as [|? IH]; intros; cbn [distance_loop]; stpr IH. Defined.
#[global] Hint Resolve st_distance_loop : stdb.
Lemma st_lst_size : forall b0 T0 x0 x1, steps b0 (@lst_size T0 x0 x1).
Proof. intros. unfold lst_size. stp. Defined.
#[global] Hint Resolve st_lst_size : stdb.
Lemma st_lst_front : forall b0 T0 x0 x1, steps b0 (@lst_front T0 x0 x1).
Proof. intros. unfold lst_front. stp. Defined.
#[global] Hint Resolve st_lst_front : stdb.
Lemma st_lst_back : forall b0 T0 x0 x1, steps b0 (@lst_back T0 x0 x1).
Proof. intros. unfold lst_back. stp. Defined.
#[global] Hint Resolve st_lst_back : stdb.
Lemma st_walk_loop : forall b0 T0 x0 x1 x2 x3, steps b0 (@walk_loop T0 x0 x1 x2 x3).
Proof. intros. revert x2 x3. induction x1 as [|? IH]; intros; cbn [walk_loop]; stpr IH. Defined.
#[global] Hint Resolve st_walk_loop : stdb.
Lemma st_lst_walk : forall b0 T0 x0 x1, steps b0 (@lst_walk T0 x0 x1).
Proof. intros. unfold lst_walk. stp. Defined.
#[global] Hint Resolve st_lst_walk : stdb.
Lemma st_rwalk_loop : forall b0 T0 x0 x1 x2 x3, steps b0 (@rwalk_loop T0 x0 x1 x2 x3).
Proof. intros. revert x2 x3. induction x1 as [|? IH]; intros; cbn [rwalk_loop]; stpr IH. Defined.
#[global] Hint Resolve st_rwalk_loop : stdb.
Lemma st_lst_rwalk : forall b0 T0 x0 x1, steps b0 (@lst_rwalk T0 x0 x1).
Proof. intros. unfold lst_rwalk. stp. Defined.
#[global] Hint Resolve st_lst_rwalk : stdb.
Lemma st_lst_emplace : forall T0 x0 x1 x2 x3, steps false (@lst_emplace T0 x0 x1 x2 x3).
Proof. intros. unfold lst_emplace. stp. Defined.
#[global] Hint Resolve st_lst_emplace : stdb.
Lemma st_lst_insert : forall T0 x0 x1 x2 x3, steps false (@lst_insert T0 x0 x1 x2 x3).
Proof. intros. unfold lst_insert. stp. Defined.
#[global] Hint Resolve st_lst_insert : stdb.
Lemma st_lst_insert_n : forall T0 x0 x1 x2 x3 x4, steps false (@lst_insert_n T0 x0 x1 x2 x3 x4).
Proof. intros. revert x1 x2 x4. induction x3 as [|? IH]; intros; cbn [lst_insert_n]; stpr IH. Defined.
#[global] Hint Resolve st_lst_insert_n : stdb.
Lemma st_lst_insert_range : forall T0 x0 x1 x2 x3, steps false (@lst_insert_range T0 x0 x1 x2 x3).
Proof. intros. revert x1 x2. induction x3 as [|? ? IH]; intros; cbn [lst_insert_range]; stpr IH. Defined.
#[global] Hint Resolve st_lst_insert_range : stdb.
Lemma st_lst_erase : forall T0 x0 x1 x2, steps false (@lst_erase T0 x0 x1 x2).
Proof. intros. unfold lst_erase. stp. Defined.
#[global] Hint Resolve st_lst_erase : stdb.
Lemma st_erase_range_loop : forall T0 x0 x1 x2 x3 x4, steps false (@erase_range_loop T0 x0 x1 x2 x3 x4).
Proof. intros. revert x2 x3 x4. induction x1 as [|? IH]; intros; cbn [erase_range_loop]; stpr IH. Defined.
#[global] Hint Resolve st_erase_range_loop : stdb.
Lemma st_lst_erase_range : forall T0 x0 x1 x2 x3, steps false (@lst_erase_range T0 x0 x1 x2 x3).
Proof. intros. unfold lst_erase_range. stp. Defined.
#[global] Hint Resolve st_lst_erase_range : stdb.
Lemma st_lst_push_back : forall T0 x0 x1 x2, steps false (@lst_push_back T0 x0 x1 x2).
Proof. intros. unfold lst_push_back. stp. Defined.
#[global] Hint Resolve st_lst_push_back : stdb.
Lemma st_lst_push_front : forall T0 x0 x1 x2, steps false (@lst_push_front T0 x0 x1 x2).
Proof. intros. unfold lst_push_front. stp. Defined.
#[global] Hint Resolve st_lst_push_front : stdb.
Lemma st_lst_pop_back : forall T0 x0 x1, steps false (@lst_pop_back T0 x0 x1).
Proof. intros. unfold lst_pop_back. stp. Defined.
#[global] Hint Resolve st_lst_pop_back : stdb.
Lemma st_lst_pop_front : forall T0 x0 x1, steps false (@lst_pop_front T0 x0 x1).
Proof. intros. unfold lst_pop_front. stp. Defined.
#[global] Hint Resolve st_lst_pop_front : stdb.
Lemma st_push_n_loop : forall T0 x0 x1 x2 x3, steps false (@push_n_loop T0 x0 x1 x2 x3).
Proof. intros. revert x1 x3. induction x2 as [|? IH]; intros; cbn [push_n_loop]; stpr IH. Defined.
#[global] Hint Resolve st_push_n_loop : stdb.
Lemma st_lst_assign_n : forall T0 x0 x1 x2 x3, steps false (@lst_assign_n T0 x0 x1 x2 x3).
Proof. intros. unfold lst_assign_n. stp. Defined.
#[global] Hint Resolve st_lst_assign_n : stdb.
Lemma st_push_args_loop : forall T0 x0 x1 x2, steps false (@push_args_loop T0 x0 x1 x2).
Proof. intros. revert x1. induction x2 as [|? ? IH]; intros; cbn [push_args_loop]; stpr IH. Defined.
#[global] Hint Resolve st_push_args_loop : stdb.
Lemma st_lst_assign_args : forall T0 x0 x1 x2, steps false (@lst_assign_args T0 x0 x1 x2).
Proof. intros. unfold lst_assign_args. stp. Defined.
#[global] Hint Resolve st_lst_assign_args : stdb.
Lemma st_push_nodes_loop : forall T0 x0 x1 x2 x3 x4, steps false (@push_nodes_loop T0 x0 x1 x2 x3 x4).
Proof. intros. revert x2 x3 x4. induction x1 as [|? IH]; intros; cbn [push_nodes_loop]; stpr IH. Defined.
#[global] Hint Resolve st_push_nodes_loop : stdb.
Lemma st_lst_assign_nodes : forall T0 x0 x1 x2 x3, steps false (@lst_assign_nodes T0 x0 x1 x2 x3).
Proof. intros. unfold lst_assign_nodes. stp. Defined.
#[global] Hint Resolve st_lst_assign_nodes : stdb.
Lemma st_lst_copy : forall T0 x0 x1 x2, steps false (@lst_copy T0 x0 x1 x2).
Proof. intros. unfold lst_copy. stp. Defined.
#[global] Hint Resolve st_lst_copy : stdb.
Lemma st_lst_transfer : forall T0 x0 x1 x2 x3, steps false (@lst_transfer T0 x0 x1 x2 x3).
Proof. intros. unfold lst_transfer. stp. Defined.
#[global] Hint Resolve st_lst_transfer : stdb.
Lemma st_merge_loop : forall T0 x0 x1 x2 x3 x4 x5 x6, steps false (@merge_loop T0 x0 x1 x2 x3 x4 x5 x6).
Proof. intros. revert x2 x3 x4 x5 x6. induction x1 as [|? IH]; intros; cbn [merge_loop]; stpr IH. Defined.
#[global] Hint Resolve st_merge_loop : stdb.
Lemma st_lst_merge : forall T0 x0 x1 x2 x3, steps false (@lst_merge T0 x0 x1 x2 x3).
Proof. intros. unfold lst_merge. stp. Defined.
#[global] Hint Resolve st_lst_merge : stdb.
Lemma st_lst_splice : forall T0 x0 x1 x2 x3, steps false (@lst_splice T0 x0 x1 x2 x3).
Proof. intros. unfold lst_splice. stp. Defined.
#[global] Hint Resolve st_lst_splice : stdb.
Lemma st_lst_splice_one : forall T0 x0 x1 x2, steps false (@lst_splice_one T0 x0 x1 x2).
Proof. intros. unfold lst_splice_one. stp. Defined.
#[global] Hint Resolve st_lst_splice_one : stdb.
Lemma st_lst_splice_range : forall T0 x0 x1 x2 x3, steps false (@lst_splice_range T0 x0 x1 x2 x3).
Proof. intros. unfold lst_splice_range. stp. Defined.
#[global] Hint Resolve st_lst_splice_range : stdb.
Lemma st_bin : forall b0 T0 x0 x1, steps b0 (@bin T0 x0 x1).
Proof. intros. unfold bin. stp. Defined.
#[global] Hint Resolve st_bin : stdb.
Lemma st_new_lists : forall T0 x0 x1, steps false (@new_lists T0 x0 x1).
Proof. intros. induction x1 as [|? IH]; intros; cbn [new_lists]; stpr IH. Defined.
#[global] Hint Resolve st_new_lists : stdb.
Lemma st_destroy_lists : forall T0 x0, steps false (@destroy_lists T0 x0).
Proof. intros. induction x0 as [|? ? IH]; intros; cbn [destroy_lists]; stpr IH. Defined.
#[global] Hint Resolve st_destroy_lists : stdb.
Lemma st_carry_loop : forall T0 x0 x1 x2 x3 x4 x5 x6, steps false (@carry_loop T0 x0 x1 x2 x3 x4 x5 x6).
Proof. intros. revert x2 x3 x4 x5 x6. induction x1 as [|? IH]; intros; cbn [carry_loop]; stpr IH. Defined.
#[global] Hint Resolve st_carry_loop : stdb.
Lemma st_sort_loop : forall T0 x0 x1 x2 x3 x4 x5 x6, steps false (@sort_loop T0 x0 x1 x2 x3 x4 x5 x6).
Proof. intros. revert x2 x3 x4 x5 x6. induction x1 as [|? IH]; intros; cbn [sort_loop]; stpr IH. Defined.
#[global] Hint Resolve st_sort_loop : stdb.
Lemma st_fold_loop : forall T0 x0 x1 x2 x3 x4 x5, steps false (@fold_loop T0 x0 x1 x2 x3 x4 x5).
Proof. intros. revert x2 x3 x4 x5. induction x1 as [|? IH]; intros; cbn [fold_loop]; stpr IH. Defined.
#[global] Hint Resolve st_fold_loop : stdb.
Lemma st_lst_sort : forall T0 x0 x1 x2, steps false (@lst_sort T0 x0 x1 x2).
Proof. intros. unfold lst_sort. stp. Defined.
#[global] Hint Resolve st_lst_sort : stdb.
Lemma st_leq_loop : forall b0 T0 x0 x1 x2 x3 x4 x5, steps b0 (@leq_loop T0 x0 x1 x2 x3 x4 x5).
Proof. intros. revert x2 x3 x4 x5. induction x1 as [|? IH]; intros; cbn [leq_loop]; stpr IH. Defined.
#[global] Hint Resolve st_leq_loop : stdb.
Lemma st_lst_equal : forall b0 T0 x0 x1 x2 x3, steps b0 (@lst_equal T0 x0 x1 x2 x3).
Proof. intros. unfold lst_equal. stp. Defined.
#[global] Hint Resolve st_lst_equal : stdb.
Lemma st_lst_two_phase_init : forall T0 x0 x1 x2, steps false (@lst_two_phase_init T0 x0 x1 x2).
Proof. intros. unfold lst_two_phase_init. stp. Defined.
#[global] Hint Resolve st_lst_two_phase_init : stdb.
Lemma st_step_iter : forall b0 T0 x0 x1 x2 x3, steps b0 (@step_iter T0 x0 x1 x2 x3).
Proof. intros. revert x1 x2. induction x3 as [|? IH]; intros; cbn [step_iter]; stpr IH. Defined.
#[global] Hint Resolve st_step_iter : stdb.
Lemma st_iter_at : forall b0 T0 x0 x1 x2, steps b0 (@iter_at T0 x0 x1 x2).
Proof. intros. unfold iter_at. stp. Defined.
#[global] Hint Resolve st_iter_at : stdb.
Lemma st_get_arg : forall b0 T0 x0 x1 x2, steps b0 (@get_arg T0 x0 x1 x2).
Proof. intros. unfold get_arg. stp. Defined.
#[global] Hint Resolve st_get_arg : stdb.
Lemma st_exec_lop : forall T0 x0 x1 x2 x3, steps false (@exec_lop T0 x0 x1 x2 x3).
Proof. intros. unfold exec_lop, with_lst, with_arg. stp. Defined.
#[global] Hint Resolve st_exec_lop : stdb.
