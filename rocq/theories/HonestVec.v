(** * Which errors vector operations report *)
From Verif Require Export Errors VecHistSpec.

(** Errors that need no refusal by the environment: the request is too long, or
    larger than the platform can serve. *)
Definition too_big (e : error) : Prop := e = ELength \/ e = EBadAlloc.

Lemma sh_load_block : forall T0 x0, silent (@load_block T0 x0).
Proof. intros. unfold load_block. sh. Qed.
#[global] Hint Resolve sh_load_block : shdb.
Lemma sh_place : forall T0 x0 x1, silent (@place T0 x0 x1).
Proof. intros. unfold place. sh. Qed.
#[global] Hint Resolve sh_place : shdb.
Lemma sh_read : forall T0 x0, silent (@read T0 x0).
Proof. intros. unfold read. sh. Qed.
#[global] Hint Resolve sh_read : shdb.
Lemma sh_overwrite : forall T0 x0 x1, silent (@overwrite T0 x0 x1).
Proof. intros. unfold overwrite. sh. Qed.
#[global] Hint Resolve sh_overwrite : shdb.
Lemma sh_destroy1 : forall T0 x0, silent (@destroy1 T0 x0).
Proof. intros. unfold destroy1. sh. Qed.
#[global] Hint Resolve sh_destroy1 : shdb.
Lemma sh_padd : forall T0 x0 x1, silent (@padd T0 x0 x1).
Proof. intros. unfold padd. sh. Qed.
#[global] Hint Resolve sh_padd : shdb.
Lemma sh_pdec : forall T0 x0, silent (@pdec T0 x0).
Proof. intros. unfold pdec. sh. Qed.
#[global] Hint Resolve sh_pdec : shdb.
Lemma sh_pdiff : forall T0 x0 x1, silent (@pdiff T0 x0 x1).
Proof. intros. unfold pdiff. sh. Qed.
#[global] Hint Resolve sh_pdiff : shdb.
Lemma sh_allocate : forall T0 x0 x1 x2, honest too_big (@allocate T0 x0 x1 x2).
Proof. intros. unfold allocate. cbv zeta. destruct (decide _); sh. apply honest_put_err. by right. Qed.
#[global] Hint Resolve sh_allocate : shdb.
Lemma sh_deallocate : forall T0 x0 x1 x2, silent (@deallocate T0 x0 x1 x2).
Proof. intros. unfold deallocate. sh. Qed.
#[global] Hint Resolve sh_deallocate : shdb.
Lemma sh_destroy_loop : forall T0 x0 x1 x2, silent (@destroy_loop T0 x0 x1 x2).
Proof. intros. revert x1 x2. induction x0 as [|? IH]; intros; cbn [destroy_loop]; shr IH. Qed.
#[global] Hint Resolve sh_destroy_loop : shdb.
Lemma sh_destroy : forall T0 x0 x1, silent (@destroy T0 x0 x1).
Proof. intros. unfold destroy. sh. Qed.
#[global] Hint Resolve sh_destroy : shdb.
Lemma sh_read_arg : forall T0 x0, silent (@read_arg T0 x0).
Proof. intros. unfold read_arg. sh. Qed.
#[global] Hint Resolve sh_read_arg : shdb.
Lemma sh_construct_at : forall T0 x0 x1 x2, honest too_big (@construct_at T0 x0 x1 x2).
Proof. intros. unfold construct_at. sh. Qed.
#[global] Hint Resolve sh_construct_at : shdb.
Lemma sh_uninitialised_copy_loop : forall T0 x0 x1 x2 x3 x4 x5, honest too_big (@uninitialised_copy_loop T0 x0 x1 x2 x3 x4 x5).
Proof. intros. revert x2 x3 x4 x5. induction x1 as [|? IH]; intros; cbn [uninitialised_copy_loop]; shr IH. Qed.
#[global] Hint Resolve sh_uninitialised_copy_loop : shdb.
Lemma sh_uninitialised_copy : forall T0 x0 x1 x2 x3, honest too_big (@uninitialised_copy T0 x0 x1 x2 x3).
Proof. intros. unfold uninitialised_copy. sh. Qed.
#[global] Hint Resolve sh_uninitialised_copy : shdb.
Lemma sh_vec_size : forall T0 x0, silent (@vec_size T0 x0).
Proof. intros. unfold vec_size. sh. Qed.
#[global] Hint Resolve sh_vec_size : shdb.
Lemma sh_vec_capacity : forall T0 x0, silent (@vec_capacity T0 x0).
Proof. intros. unfold vec_capacity. sh. Qed.
#[global] Hint Resolve sh_vec_capacity : shdb.
Lemma sh_vec_index : forall T0 x0 x1 x2, silent (@vec_index T0 x0 x1 x2).
Proof. intros. unfold vec_index. sh. Qed.
#[global] Hint Resolve sh_vec_index : shdb.
Lemma sh_vec_at : forall T0 x0 x1 x2, silent (@vec_at T0 x0 x1 x2).
Proof. intros. unfold vec_at. sh. Qed.
#[global] Hint Resolve sh_vec_at : shdb.
Lemma sh_vec_front : forall T0 x0 x1, silent (@vec_front T0 x0 x1).
Proof. intros. unfold vec_front. sh. Qed.
#[global] Hint Resolve sh_vec_front : shdb.
Lemma sh_vec_back : forall T0 x0 x1, silent (@vec_back T0 x0 x1).
Proof. intros. unfold vec_back. sh. Qed.
#[global] Hint Resolve sh_vec_back : shdb.
Lemma sh_vec_data : forall T0 x0 x1, silent (@vec_data T0 x0 x1).
Proof. intros. unfold vec_data. sh. Qed.
#[global] Hint Resolve sh_vec_data : shdb.
Lemma sh_do_reserve : forall T0 x0 x1 x2, honest too_big (@do_reserve T0 x0 x1 x2).
Proof. intros. unfold do_reserve. sh. Qed.
#[global] Hint Resolve sh_do_reserve : shdb.
Lemma sh_vec_reserve : forall T0 x0 x1 x2, honest too_big (@vec_reserve T0 x0 x1 x2).
Proof. intros. unfold vec_reserve. sh. apply honest_put_err. by left. Qed.
#[global] Hint Resolve sh_vec_reserve : shdb.
Lemma sh_vec_shrink_to_fit : forall T0 x0 x1, honest too_big (@vec_shrink_to_fit T0 x0 x1).
Proof. intros. unfold vec_shrink_to_fit. sh. Qed.
#[global] Hint Resolve sh_vec_shrink_to_fit : shdb.
Lemma sh_grow : forall T0 x0 x1 x2, honest too_big (@grow T0 x0 x1 x2).
Proof. intros. unfold grow. sh. Qed.
#[global] Hint Resolve sh_grow : shdb.
Lemma sh_vec_destroy : forall T0 x0, silent (@vec_destroy T0 x0).
Proof. intros. unfold vec_destroy. sh. Qed.
#[global] Hint Resolve sh_vec_destroy : shdb.
Lemma sh_vec_clear : forall T0 x0, silent (@vec_clear T0 x0).
Proof. intros. unfold vec_clear. sh. Qed.
#[global] Hint Resolve sh_vec_clear : shdb.
Lemma sh_vec_move_assign : forall T0 x0 x1, silent (@vec_move_assign T0 x0 x1).
Proof. intros. unfold vec_move_assign. sh. Qed.
#[global] Hint Resolve sh_vec_move_assign : shdb.
Lemma sh_vec_move_assign_self : forall T0 x0, silent (@vec_move_assign_self T0 x0).
Proof. intros. unfold vec_move_assign_self. sh. Qed.
#[global] Hint Resolve sh_vec_move_assign_self : shdb.
Lemma sh_shift_loop : forall T0 x0 x1 x2 x3, honest too_big (@shift_loop T0 x0 x1 x2 x3).
Proof. intros. revert x2 x3. induction x1 as [|? IH]; intros; cbn [shift_loop]; shr IH. Qed.
#[global] Hint Resolve sh_shift_loop : shdb.
Lemma sh_insert_value : forall T0 x0 x1 x2 x3, honest too_big (@insert_value T0 x0 x1 x2 x3).
Proof. intros. unfold insert_value. sh. Qed.
#[global] Hint Resolve sh_insert_value : shdb.
Lemma sh_vec_insert : forall T0 x0 x1 x2 x3, honest too_big (@vec_insert T0 x0 x1 x2 x3).
Proof. intros. unfold vec_insert. sh. Qed.
#[global] Hint Resolve sh_vec_insert : shdb.
Lemma sh_vec_push_back : forall T0 x0 x1 x2, honest too_big (@vec_push_back T0 x0 x1 x2).
Proof. intros. unfold vec_push_back. sh. Qed.
#[global] Hint Resolve sh_vec_push_back : shdb.
Lemma sh_vec_emplace_back : forall T0 x0 x1 x2, honest too_big (@vec_emplace_back T0 x0 x1 x2).
Proof. intros. unfold vec_emplace_back. sh. Qed.
#[global] Hint Resolve sh_vec_emplace_back : shdb.
Lemma sh_insert_range_loop : forall T0 x0 x1 x2 x3 x4, honest too_big (@insert_range_loop T0 x0 x1 x2 x3 x4).
Proof. intros. revert x1 x2 x3. induction x4 as [|? ? IH]; intros; cbn [insert_range_loop]; shr IH. Qed.
#[global] Hint Resolve sh_insert_range_loop : shdb.
Lemma sh_vec_insert_range : forall T0 x0 x1 x2 x3, honest too_big (@vec_insert_range T0 x0 x1 x2 x3).
Proof. intros. unfold vec_insert_range. sh. Qed.
#[global] Hint Resolve sh_vec_insert_range : shdb.
Lemma sh_resize_loop : forall T0 x0 x1 x2 x3 x4, honest too_big (@resize_loop T0 x0 x1 x2 x3 x4).
Proof. intros. revert x2 x3 x4. induction x1 as [|? IH]; intros; cbn [resize_loop]; shr IH. Qed.
#[global] Hint Resolve sh_resize_loop : shdb.
Lemma sh_vec_resize : forall T0 x0 x1 x2 x3, honest too_big (@vec_resize T0 x0 x1 x2 x3).
Proof. intros. unfold vec_resize. sh. Qed.
#[global] Hint Resolve sh_vec_resize : shdb.
Lemma sh_assign_n_loop : forall T0 x0 x1 x2 x3, honest too_big (@assign_n_loop T0 x0 x1 x2 x3).
Proof. intros. revert x1 x3. induction x2 as [|? IH]; intros; cbn [assign_n_loop]; shr IH. Qed.
#[global] Hint Resolve sh_assign_n_loop : shdb.
Lemma sh_vec_assign_n : forall T0 x0 x1 x2 x3, honest too_big (@vec_assign_n T0 x0 x1 x2 x3).
Proof. intros. unfold vec_assign_n. sh. Qed.
#[global] Hint Resolve sh_vec_assign_n : shdb.
Lemma sh_assign_input_loop : forall T0 x0 x1 x2, honest too_big (@assign_input_loop T0 x0 x1 x2).
Proof. intros. revert x1. induction x2 as [|? ? IH]; intros; cbn [assign_input_loop]; shr IH. Qed.
#[global] Hint Resolve sh_assign_input_loop : shdb.
Lemma sh_vec_assign_input : forall T0 x0 x1 x2, honest too_big (@vec_assign_input T0 x0 x1 x2).
Proof. intros. unfold vec_assign_input. sh. Qed.
#[global] Hint Resolve sh_vec_assign_input : shdb.
Lemma sh_assign_ptr_loop : forall T0 x0 x1 x2 x3 x4, honest too_big (@assign_ptr_loop T0 x0 x1 x2 x3 x4).
Proof. intros. revert x2 x3 x4. induction x1 as [|? IH]; intros; cbn [assign_ptr_loop]; shr IH. Qed.
#[global] Hint Resolve sh_assign_ptr_loop : shdb.
Lemma sh_vec_assign_ptrs : forall T0 x0 x1 x2 x3, honest too_big (@vec_assign_ptrs T0 x0 x1 x2 x3).
Proof. intros. unfold vec_assign_ptrs. sh. Qed.
#[global] Hint Resolve sh_vec_assign_ptrs : shdb.
Lemma sh_vec_copy : forall T0 x0 x1 x2, honest too_big (@vec_copy T0 x0 x1 x2).
Proof. intros. unfold vec_copy. sh. Qed.
#[global] Hint Resolve sh_vec_copy : shdb.
Lemma sh_eq_loop : forall T0 x0 x1 x2 x3 x4, silent (@eq_loop T0 x0 x1 x2 x3 x4).
Proof. intros. revert x0 x2 x3 x4. induction x1 as [|? IH]; intros; cbn [eq_loop]; shr IH. Qed.
#[global] Hint Resolve sh_eq_loop : shdb.
Lemma sh_vec_equal : forall T0 x0 x1 x2, silent (@vec_equal T0 x0 x1 x2).
Proof. intros. unfold vec_equal. sh. Qed.
#[global] Hint Resolve sh_vec_equal : shdb.
Lemma sh_pos_at : forall T0 x0 x1, silent (@pos_at T0 x0 x1).
Proof. intros. unfold pos_at. sh. Qed.
#[global] Hint Resolve sh_pos_at : shdb.
Lemma sh_exec_op : forall T0 x0 x1 x2, honest too_big (@exec_op T0 x0 x1 x2).
Proof. intros. unfold exec_op. sh. Qed.
#[global] Hint Resolve sh_exec_op : shdb.
