(** * Vector operations as programs of single steps *)
From Verif Require Export Conc VecHistSpec.

Lemma st_load_block : forall b0 T0 x0, steps b0 (@load_block T0 x0).
Proof. intros. unfold load_block. stp. Defined.
#[global] Hint Resolve st_load_block : stdb.
Lemma st_place : forall T0 x0 x1, steps false (@place T0 x0 x1).
Proof. intros. unfold place. stp. Defined.
#[global] Hint Resolve st_place : stdb.
Lemma st_read : forall b0 T0 x0, steps b0 (@read T0 x0).
Proof. intros. unfold read. stp. Defined.
#[global] Hint Resolve st_read : stdb.
Lemma st_overwrite : forall T0 x0 x1, steps false (@overwrite T0 x0 x1).
Proof. intros. unfold overwrite. stp. Defined.
#[global] Hint Resolve st_overwrite : stdb.
Lemma st_destroy1 : forall T0 x0, steps false (@destroy1 T0 x0).
Proof. intros. unfold destroy1. stp. Defined.
#[global] Hint Resolve st_destroy1 : stdb.
Lemma st_padd : forall b0 T0 x0 x1, steps b0 (@padd T0 x0 x1).
Proof. intros. unfold padd. stp. Defined.
#[global] Hint Resolve st_padd : stdb.
Lemma st_pdec : forall b0 T0 x0, steps b0 (@pdec T0 x0).
Proof. intros. unfold pdec. stp. Defined.
#[global] Hint Resolve st_pdec : stdb.
Lemma st_pdiff : forall b0 T0 x0 x1, steps b0 (@pdiff T0 x0 x1).
Proof. intros. unfold pdiff. stp. Defined.
#[global] Hint Resolve st_pdiff : stdb.
Lemma st_allocate : forall T0 x0 x1 x2, steps false (@allocate T0 x0 x1 x2).
Proof. intros. unfold allocate. stp. Defined.
#[global] Hint Resolve st_allocate : stdb.
Lemma st_deallocate : forall T0 x0 x1 x2, steps false (@deallocate T0 x0 x1 x2).
Proof. intros. unfold deallocate. stp. Defined.
#[global] Hint Resolve st_deallocate : stdb.
Lemma st_destroy_loop : forall T0 x0 x1 x2, steps false (@destroy_loop T0 x0 x1 x2).
Proof. intros. revert x1 x2. induction x0 as [|? IH]; intros; cbn [destroy_loop]; stpr IH. Defined.
#[global] Hint Resolve st_destroy_loop : stdb.
Lemma st_destroy : forall T0 x0 x1, steps false (@destroy T0 x0 x1).
Proof. intros. unfold destroy. stp. Defined.
#[global] Hint Resolve st_destroy : stdb.
Lemma st_read_arg : forall b0 T0 x0, steps b0 (@read_arg T0 x0).
Proof. intros. unfold read_arg. stp. Defined.
#[global] Hint Resolve st_read_arg : stdb.
Lemma st_construct_at : forall T0 x0 x1 x2, steps false (@construct_at T0 x0 x1 x2).
Proof. intros. unfold construct_at. stp. Defined.
#[global] Hint Resolve st_construct_at : stdb.
Lemma st_uninitialised_copy_loop : forall T0 x0 x1 x2 x3 x4 x5, steps false (@uninitialised_copy_loop T0 x0 x1 x2 x3 x4 x5).
Proof. intros. revert x2 x3 x4 x5. induction x1 as [|? IH]; intros; cbn [uninitialised_copy_loop]; stpr IH. Defined.
#[global] Hint Resolve st_uninitialised_copy_loop : stdb.
Lemma st_uninitialised_copy : forall T0 x0 x1 x2 x3, steps false (@uninitialised_copy T0 x0 x1 x2 x3).
Proof. intros. unfold uninitialised_copy. stp. Defined.
#[global] Hint Resolve st_uninitialised_copy : stdb.
Lemma st_vec_size : forall b0 T0 x0, steps b0 (@vec_size T0 x0).
Proof. intros. unfold vec_size. stp. Defined.
#[global] Hint Resolve st_vec_size : stdb.
Lemma st_vec_capacity : forall b0 T0 x0, steps b0 (@vec_capacity T0 x0).
Proof. intros. unfold vec_capacity. stp. Defined.
#[global] Hint Resolve st_vec_capacity : stdb.
Lemma st_vec_index : forall b0 T0 x0 x1 x2, steps b0 (@vec_index T0 x0 x1 x2).
Proof. intros. unfold vec_index. stp. Defined.
#[global] Hint Resolve st_vec_index : stdb.
Lemma st_vec_at : forall b0 T0 x0 x1 x2, steps b0 (@vec_at T0 x0 x1 x2).
Proof. intros. unfold vec_at. stp. Defined.
#[global] Hint Resolve st_vec_at : stdb.
Lemma st_vec_front : forall b0 T0 x0 x1, steps b0 (@vec_front T0 x0 x1).
Proof. intros. unfold vec_front. stp. Defined.
#[global] Hint Resolve st_vec_front : stdb.
Lemma st_vec_back : forall b0 T0 x0 x1, steps b0 (@vec_back T0 x0 x1).
Proof. intros. unfold vec_back. stp. Defined.
#[global] Hint Resolve st_vec_back : stdb.
Lemma st_vec_data : forall b0 T0 x0 x1, steps b0 (@vec_data T0 x0 x1).
Proof. intros. unfold vec_data. stp. Defined.
#[global] Hint Resolve st_vec_data : stdb.
Lemma st_do_reserve : forall T0 x0 x1 x2, steps false (@do_reserve T0 x0 x1 x2).
Proof. intros. unfold do_reserve. stp. Defined.
#[global] Hint Resolve st_do_reserve : stdb.
Lemma st_vec_reserve : forall T0 x0 x1 x2, steps false (@vec_reserve T0 x0 x1 x2).
Proof. intros. unfold vec_reserve. stp. Defined.
#[global] Hint Resolve st_vec_reserve : stdb.
Lemma st_vec_shrink_to_fit : forall T0 x0 x1, steps false (@vec_shrink_to_fit T0 x0 x1).
Proof. intros. unfold vec_shrink_to_fit. stp. Defined.
#[global] Hint Resolve st_vec_shrink_to_fit : stdb.
Lemma st_grow : forall T0 x0 x1 x2, steps false (@grow T0 x0 x1 x2).
Proof. intros. unfold grow. stp. Defined.
#[global] Hint Resolve st_grow : stdb.
Lemma st_vec_destroy : forall T0 x0, steps false (@vec_destroy T0 x0).
Proof. intros. unfold vec_destroy. stp. Defined.
#[global] Hint Resolve st_vec_destroy : stdb.
Lemma st_vec_clear : forall T0 x0, steps false (@vec_clear T0 x0).
Proof. intros. unfold vec_clear. stp. Defined.
#[global] Hint Resolve st_vec_clear : stdb.
Lemma st_vec_move_assign : forall T0 x0 x1, steps false (@vec_move_assign T0 x0 x1).
Proof. intros. unfold vec_move_assign. stp. Defined.
#[global] Hint Resolve st_vec_move_assign : stdb.
Lemma st_vec_move_assign_self : forall T0 x0, steps false (@vec_move_assign_self T0 x0).
Proof. intros. unfold vec_move_assign_self. stp. Defined.
#[global] Hint Resolve st_vec_move_assign_self : stdb.
Lemma st_shift_loop : forall T0 x0 x1 x2 x3, steps false (@shift_loop T0 x0 x1 x2 x3).
Proof. intros. revert x2 x3. induction x1 as [|? IH]; intros; cbn [shift_loop]; stpr IH. Defined.
#[global] Hint Resolve st_shift_loop : stdb.
Lemma st_insert_value : forall T0 x0 x1 x2 x3, steps false (@insert_value T0 x0 x1 x2 x3).
Proof. intros. unfold insert_value. stp. Defined.
#[global] Hint Resolve st_insert_value : stdb.
Lemma st_vec_insert : forall T0 x0 x1 x2 x3, steps false (@vec_insert T0 x0 x1 x2 x3).
Proof. intros. unfold vec_insert. stp. Defined.
#[global] Hint Resolve st_vec_insert : stdb.
Lemma st_vec_push_back : forall T0 x0 x1 x2, steps false (@vec_push_back T0 x0 x1 x2).
Proof. intros. unfold vec_push_back. stp. Defined.
#[global] Hint Resolve st_vec_push_back : stdb.
Lemma st_vec_emplace_back : forall T0 x0 x1 x2, steps false (@vec_emplace_back T0 x0 x1 x2).
Proof. intros. unfold vec_emplace_back. stp. Defined.
#[global] Hint Resolve st_vec_emplace_back : stdb.
Lemma st_insert_range_loop : forall T0 x0 x1 x2 x3 x4, steps false (@insert_range_loop T0 x0 x1 x2 x3 x4).
Proof. intros. revert x1 x2 x3. induction x4 as [|? ? IH]; intros; cbn [insert_range_loop]; stpr IH. Defined.
#[global] Hint Resolve st_insert_range_loop : stdb.
Lemma st_vec_insert_range : forall T0 x0 x1 x2 x3, steps false (@vec_insert_range T0 x0 x1 x2 x3).
Proof. intros. unfold vec_insert_range. stp. Defined.
#[global] Hint Resolve st_vec_insert_range : stdb.
Lemma st_resize_loop : forall T0 x0 x1 x2 x3 x4, steps false (@resize_loop T0 x0 x1 x2 x3 x4).
Proof. intros. revert x2 x3 x4. induction x1 as [|? IH]; intros; cbn [resize_loop]; stpr IH. Defined.
#[global] Hint Resolve st_resize_loop : stdb.
Lemma st_vec_resize : forall T0 x0 x1 x2 x3, steps false (@vec_resize T0 x0 x1 x2 x3).
Proof. intros. unfold vec_resize. stp. Defined.
#[global] Hint Resolve st_vec_resize : stdb.
Lemma st_assign_n_loop : forall T0 x0 x1 x2 x3, steps false (@assign_n_loop T0 x0 x1 x2 x3).
Proof. intros. revert x1 x3. induction x2 as [|? IH]; intros; cbn [assign_n_loop]; stpr IH. Defined.
#[global] Hint Resolve st_assign_n_loop : stdb.
Lemma st_vec_assign_n : forall T0 x0 x1 x2 x3, steps false (@vec_assign_n T0 x0 x1 x2 x3).
Proof. intros. unfold vec_assign_n. stp. Defined.
#[global] Hint Resolve st_vec_assign_n : stdb.
Lemma st_assign_input_loop : forall T0 x0 x1 x2, steps false (@assign_input_loop T0 x0 x1 x2).
Proof. intros. revert x1. induction x2 as [|? ? IH]; intros; cbn [assign_input_loop]; stpr IH. Defined.
#[global] Hint Resolve st_assign_input_loop : stdb.
Lemma st_vec_assign_input : forall T0 x0 x1 x2, steps false (@vec_assign_input T0 x0 x1 x2).
Proof. intros. unfold vec_assign_input. stp. Defined.
#[global] Hint Resolve st_vec_assign_input : stdb.
Lemma st_assign_ptr_loop : forall T0 x0 x1 x2 x3 x4, steps false (@assign_ptr_loop T0 x0 x1 x2 x3 x4).
Proof. intros. revert x2 x3 x4. induction x1 as [|? IH]; intros; cbn [assign_ptr_loop]; stpr IH. Defined.
#[global] Hint Resolve st_assign_ptr_loop : stdb.
Lemma st_vec_assign_ptrs : forall T0 x0 x1 x2 x3, steps false (@vec_assign_ptrs T0 x0 x1 x2 x3).
Proof. intros. unfold vec_assign_ptrs. stp. Defined.
#[global] Hint Resolve st_vec_assign_ptrs : stdb.
Lemma st_vec_copy : forall T0 x0 x1 x2, steps false (@vec_copy T0 x0 x1 x2).
Proof. intros. unfold vec_copy. stp. Defined.
#[global] Hint Resolve st_vec_copy : stdb.
Lemma st_eq_loop : forall b0 T0 x0 x1 x2 x3 x4, steps b0 (@eq_loop T0 x0 x1 x2 x3 x4).
Proof. intros. revert x0 x2 x3 x4. induction x1 as [|? IH]; intros; cbn [eq_loop]; stpr IH. Defined.
#[global] Hint Resolve st_eq_loop : stdb.
Lemma st_vec_equal : forall b0 T0 x0 x1 x2, steps b0 (@vec_equal T0 x0 x1 x2).
Proof. intros. unfold vec_equal. stp. Defined.
#[global] Hint Resolve st_vec_equal : stdb.
Lemma st_pos_at : forall b0 T0 x0 x1, steps b0 (@pos_at T0 x0 x1).
Proof. intros. unfold pos_at. stp. Defined.
#[global] Hint Resolve st_pos_at : stdb.
Lemma st_exec_op : forall T0 x0 x1 x2, steps false (@exec_op T0 x0 x1 x2).
Proof. intros. unfold exec_op. stp. Defined.
#[global] Hint Resolve st_exec_op : stdb.
