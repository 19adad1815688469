(** * Which errors the algorithms report *)
From Verif Require Export HonestVec AlgoModel.


Lemma sh_assign_at (L : error -> Prop) : forall T0 x0 x1 x2 x3, honest L (@assign_at T0 x0 x1 x2 x3).
Proof. intros. unfold assign_at. apply honest_bind; [sh|]. intros v. assert (honest L (let! ev := next_event in match ev with EvOk _ => overwrite x2 v | EvFail code => let! old := read x2 in do! overwrite x2 (x1 code old v) in put_err (Some (EElem code)) end)); [|by destruct (c_kind x0); sh]. apply honest_event; [intros; sh|]. intros code w a w' Hr. revert Hr. unfold bind at 1. destruct (read x2 w) as [old w1|] eqn:E1; [|done]. destruct (sh_read _ _ _ _ _ E1) as [Ho1 He1]. unfold bind. destruct (overwrite _ _ w1) as [[] w2|] eqn:E2; [|done]. destruct (sh_overwrite _ _ _ _ _ _ E2) as [Ho2 He2]. intros [= <- <-]. exists []. simpl. split; [congruence|done]. Qed.
#[global] Hint Resolve sh_assign_at : shdb.
Lemma sh_copy_if_loop (L : error -> Prop) : forall T0 x0 x1 x2 x3 x4 x5 x6, honest L (@copy_if_loop T0 x0 x1 x2 x3 x4 x5 x6).
Proof. intros. revert x2 x4 x5 x6. induction x3 as [|? IH]; intros; cbn [copy_if_loop]; shr IH. Qed.
#[global] Hint Resolve sh_copy_if_loop : shdb.
Lemma sh_nestl_copy_if (L : error -> Prop) : forall T0 x0 x1 x2 x3 x4 x5, honest L (@nestl_copy_if T0 x0 x1 x2 x3 x4 x5).
Proof. intros. unfold nestl_copy_if. sh. Qed.
#[global] Hint Resolve sh_nestl_copy_if : shdb.
Lemma sh_copy_loop (L : error -> Prop) : forall T0 x0 x1 x2 x3 x4 x5, honest L (@copy_loop T0 x0 x1 x2 x3 x4 x5).
Proof. intros. revert x3 x4 x5. induction x2 as [|? IH]; intros; cbn [copy_loop]; shr IH. Qed.
#[global] Hint Resolve sh_copy_loop : shdb.
Lemma sh_nestl_copy (L : error -> Prop) : forall T0 x0 x1 x2 x3 x4, honest L (@nestl_copy T0 x0 x1 x2 x3 x4).
Proof. intros. unfold nestl_copy. sh. Qed.
#[global] Hint Resolve sh_nestl_copy : shdb.
Lemma sh_equal_loop : forall T0 x0 x1 x2 x3 x4, silent (@equal_loop T0 x0 x1 x2 x3 x4).
Proof. intros. revert x0 x2 x3 x4. induction x1 as [|? IH]; intros; cbn [equal_loop]; shr IH. Qed.
#[global] Hint Resolve sh_equal_loop : shdb.
Lemma sh_nestl_equal : forall T0 x0 x1 x2 x3, silent (@nestl_equal T0 x0 x1 x2 x3).
Proof. intros. unfold nestl_equal. sh. Qed.
#[global] Hint Resolve sh_nestl_equal : shdb.
Lemma sh_lex_loop : forall T0 x0 x1 x2 x3 x4 x5, silent (@lex_loop T0 x0 x1 x2 x3 x4 x5).
Proof. intros. revert x0 x2 x3 x4 x5. induction x1 as [|? IH]; intros; cbn [lex_loop]; shr IH. Qed.
#[global] Hint Resolve sh_lex_loop : shdb.
Lemma sh_nestl_lexicographical_compare : forall T0 x0 x1 x2 x3 x4, silent (@nestl_lexicographical_compare T0 x0 x1 x2 x3 x4).
Proof. intros. unfold nestl_lexicographical_compare. sh. Qed.
#[global] Hint Resolve sh_nestl_lexicographical_compare : shdb.
