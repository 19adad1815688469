(** * Which errors operations of trees with equal values report *)
From Verif Require Export HonestSet RbMultiHistSpec.


Lemma sh_equal_pos_loop : forall T0 x0 x1 x2 x3 x4, silent (@equal_pos_loop T0 x0 x1 x2 x3 x4).
Proof. intros. revert x2 x3 x4. induction x1 as [|? IH]; intros; cbn [equal_pos_loop]; shr IH. Qed.
#[global] Hint Resolve sh_equal_pos_loop : shdb.
Lemma sh_insert_equal_pos : forall T0 x0 x1 x2 x3, silent (@insert_equal_pos T0 x0 x1 x2 x3).
Proof. intros. unfold insert_equal_pos. sh. Qed.
#[global] Hint Resolve sh_insert_equal_pos : shdb.
Lemma sh_insert_equal (L : error -> Prop) : forall T0 x0 x1 x2 x3 x4, honest L (@insert_equal T0 x0 x1 x2 x3 x4).
Proof. intros. unfold insert_equal. sh. Qed.
#[global] Hint Resolve sh_insert_equal : shdb.
Lemma sh_m_insert_lower (L : error -> Prop) : forall T0 x0 x1 x2 x3 x4 x5, honest L (@m_insert_lower T0 x0 x1 x2 x3 x4 x5).
Proof. intros. unfold m_insert_lower. sh. Qed.
#[global] Hint Resolve sh_m_insert_lower : shdb.
Lemma sh_equal_lower_loop : forall T0 x0 x1 x2 x3 x4, silent (@equal_lower_loop T0 x0 x1 x2 x3 x4).
Proof. intros. revert x2 x3 x4. induction x1 as [|? IH]; intros; cbn [equal_lower_loop]; shr IH. Qed.
#[global] Hint Resolve sh_equal_lower_loop : shdb.
Lemma sh_insert_equal_lower (L : error -> Prop) : forall T0 x0 x1 x2 x3 x4, honest L (@insert_equal_lower T0 x0 x1 x2 x3 x4).
Proof. intros. unfold insert_equal_lower. sh. Qed.
#[global] Hint Resolve sh_insert_equal_lower : shdb.
Lemma sh_insert_hint_equal_pos : forall T0 x0 x1 x2 x3 x4, silent (@insert_hint_equal_pos T0 x0 x1 x2 x3 x4).
Proof. intros. unfold insert_hint_equal_pos. sh. Qed.
#[global] Hint Resolve sh_insert_hint_equal_pos : shdb.
Lemma sh_insert_equal_at (L : error -> Prop) : forall T0 x0 x1 x2 x3 x4 x5, honest L (@insert_equal_at T0 x0 x1 x2 x3 x4 x5).
Proof. intros. unfold insert_equal_at. sh. Qed.
#[global] Hint Resolve sh_insert_equal_at : shdb.
Lemma sh_m_insert_lower_node : forall T0 x0 x1 x2 x3 x4, silent (@m_insert_lower_node T0 x0 x1 x2 x3 x4).
Proof. intros. unfold m_insert_lower_node. sh. Qed.
#[global] Hint Resolve sh_m_insert_lower_node : shdb.
Lemma sh_insert_equal_lower_node : forall T0 x0 x1 x2 x3, silent (@insert_equal_lower_node T0 x0 x1 x2 x3).
Proof. intros. unfold insert_equal_lower_node. sh. Qed.
#[global] Hint Resolve sh_insert_equal_lower_node : shdb.
Lemma sh_emplace_equal (L : error -> Prop) : forall T0 x0 x1 x2 x3 x4, honest L (@emplace_equal T0 x0 x1 x2 x3 x4).
Proof. intros. unfold emplace_equal. sh. Qed.
#[global] Hint Resolve sh_emplace_equal : shdb.
Lemma sh_emplace_hint_equal (L : error -> Prop) : forall T0 x0 x1 x2 x3 x4 x5, honest L (@emplace_hint_equal T0 x0 x1 x2 x3 x4 x5).
Proof. intros. unfold emplace_hint_equal. sh. Qed.
#[global] Hint Resolve sh_emplace_hint_equal : shdb.
Lemma sh_emplace_equal_all (L : error -> Prop) : forall T0 x0 x1 x2 x3 x4, honest L (@emplace_equal_all T0 x0 x1 x2 x3 x4).
Proof. intros. revert x3. induction x4 as [|? ? IH]; intros; cbn [emplace_equal_all]; shr IH. Qed.
#[global] Hint Resolve sh_emplace_equal_all : shdb.
Lemma sh_exec_mop (L : error -> Prop) : forall T0 x0 x1 x2 x3 x4, honest L (@exec_mop T0 x0 x1 x2 x3 x4).
Proof. intros. unfold exec_mop, with_tree, with_marg, ans_iter. sh. Qed.
#[global] Hint Resolve sh_exec_mop : shdb.
