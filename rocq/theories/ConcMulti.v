(** * Operations of trees with equal values as programs of single steps *)
From Verif Require Export ConcSet RbMultiHistSpec.

Lemma st_equal_pos_loop : forall b0 T0 x0 x1 x2 x3 x4, steps b0 (@equal_pos_loop T0 x0 x1 x2 x3 x4).
Proof. intros. revert x2 x3 x4. induction x1 as [|? IH]; intros; cbn [equal_pos_loop]; stpr IH. Defined.
#[global] Hint Resolve st_equal_pos_loop : stdb.
Lemma st_insert_equal_pos : forall b0 T0 x0 x1 x2 x3, steps b0 (@insert_equal_pos T0 x0 x1 x2 x3).
Proof. intros. unfold insert_equal_pos. stp. Defined.
#[global] Hint Resolve st_insert_equal_pos : stdb.
Lemma st_insert_equal : forall T0 x0 x1 x2 x3 x4, steps false (@insert_equal T0 x0 x1 x2 x3 x4).
Proof. intros. unfold insert_equal. stp. Defined.
#[global] Hint Resolve st_insert_equal : stdb.
Lemma st_m_insert_lower : forall T0 x0 x1 x2 x3 x4 x5, steps false (@m_insert_lower T0 x0 x1 x2 x3 x4 x5).
Proof. intros. unfold m_insert_lower. stp. Defined.
#[global] Hint Resolve st_m_insert_lower : stdb.
Lemma st_equal_lower_loop : forall b0 T0 x0 x1 x2 x3 x4, steps b0 (@equal_lower_loop T0 x0 x1 x2 x3 x4).
Proof. intros. revert x2 x3 x4. induction x1 as [|? IH]; intros; cbn [equal_lower_loop]; stpr IH. Defined.
#[global] Hint Resolve st_equal_lower_loop : stdb.
Lemma st_insert_equal_lower : forall T0 x0 x1 x2 x3 x4, steps false (@insert_equal_lower T0 x0 x1 x2 x3 x4).
Proof. intros. unfold insert_equal_lower. stp. Defined.
#[global] Hint Resolve st_insert_equal_lower : stdb.
Lemma st_insert_hint_equal_pos : forall b0 T0 x0 x1 x2 x3 x4, steps b0 (@insert_hint_equal_pos T0 x0 x1 x2 x3 x4).
Proof. intros. unfold insert_hint_equal_pos. stp. Defined.
#[global] Hint Resolve st_insert_hint_equal_pos : stdb.
Lemma st_insert_equal_at : forall T0 x0 x1 x2 x3 x4 x5, steps false (@insert_equal_at T0 x0 x1 x2 x3 x4 x5).
Proof. intros. unfold insert_equal_at. stp. Defined.
#[global] Hint Resolve st_insert_equal_at : stdb.
Lemma st_m_insert_lower_node : forall T0 x0 x1 x2 x3 x4, steps false (@m_insert_lower_node T0 x0 x1 x2 x3 x4).
Proof. intros. unfold m_insert_lower_node. stp. Defined.
#[global] Hint Resolve st_m_insert_lower_node : stdb.
Lemma st_insert_equal_lower_node : forall T0 x0 x1 x2 x3, steps false (@insert_equal_lower_node T0 x0 x1 x2 x3).
Proof. intros. unfold insert_equal_lower_node. stp. Defined.
#[global] Hint Resolve st_insert_equal_lower_node : stdb.
Lemma st_emplace_equal : forall T0 x0 x1 x2 x3 x4, steps false (@emplace_equal T0 x0 x1 x2 x3 x4).
Proof. intros. unfold emplace_equal. stp. Defined.
#[global] Hint Resolve st_emplace_equal : stdb.
Lemma st_emplace_hint_equal : forall T0 x0 x1 x2 x3 x4 x5, steps false (@emplace_hint_equal T0 x0 x1 x2 x3 x4 x5).
Proof. intros. unfold emplace_hint_equal. stp. Defined.
#[global] Hint Resolve st_emplace_hint_equal : stdb.
Lemma st_emplace_equal_all : forall T0 x0 x1 x2 x3 x4, steps false (@emplace_equal_all T0 x0 x1 x2 x3 x4).
Proof. intros. revert x3. induction x4 as [|? ? IH]; intros; cbn [emplace_equal_all]; stpr IH. Defined.
#[global] Hint Resolve st_emplace_equal_all : stdb.
Lemma st_exec_mop : forall T0 x0 x1 x2 x3 x4, steps false (@exec_mop T0 x0 x1 x2 x3 x4).
Proof. intros. unfold exec_mop, with_tree, with_marg, ans_iter. stp. Defined.
#[global] Hint Resolve st_exec_mop : stdb.
