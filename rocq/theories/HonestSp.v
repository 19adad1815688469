(** * Which errors shared_ptr operations report *)
From Verif Require Export Errors SpHistSpec.


Lemma sh_get_block : forall T0 x0, silent (@get_block T0 x0).
Proof. intros. unfold get_block. sh. Qed.
#[global] Hint Resolve sh_get_block : shdb.
Lemma sh_put_block : forall T0 x0 x1, silent (@put_block T0 x0 x1).
Proof. intros. unfold put_block. sh. Qed.
#[global] Hint Resolve sh_put_block : shdb.
Lemma sh_get_handle : forall T0 x0, silent (@get_handle T0 x0).
Proof. intros. unfold get_handle. sh. Qed.
#[global] Hint Resolve sh_get_handle : shdb.
Lemma sh_put_handle : forall T0 x0 x1, silent (@put_handle T0 x0 x1).
Proof. intros. unfold put_handle. sh. Qed.
#[global] Hint Resolve sh_put_handle : shdb.
Lemma sh_cb_use_count : forall T0 x0 x1, silent (@cb_use_count T0 x0 x1).
Proof. intros. unfold cb_use_count. sh. Qed.
#[global] Hint Resolve sh_cb_use_count : shdb.
Lemma sh_add_ref : forall T0 x0 x1, silent (@add_ref T0 x0 x1).
Proof. intros. unfold add_ref. sh. Qed.
#[global] Hint Resolve sh_add_ref : shdb.
Lemma sh_weak_add_ref : forall T0 x0 x1, silent (@weak_add_ref T0 x0 x1).
Proof. intros. unfold weak_add_ref. sh. Qed.
#[global] Hint Resolve sh_weak_add_ref : shdb.
Lemma sh_destroy_self : forall T0 x0, silent (@destroy_self T0 x0).
Proof. intros. unfold destroy_self. sh. Qed.
#[global] Hint Resolve sh_destroy_self : shdb.
Lemma sh_weak_release : forall T0 x0 x1, silent (@weak_release T0 x0 x1).
Proof. intros. unfold weak_release. sh. Qed.
#[global] Hint Resolve sh_weak_release : shdb.
Lemma sh_release : forall T0 x0 x1 x2, silent (@release T0 x0 x1 x2).
Proof. 
  intros. revert x2. induction x1 as [|n IH]; intros; cbn [release]; shr IH. 
  match goal with |- silent (_ ?hs) => induction hs as [|h hs IHh]; shr IH; apply IHh end.
 Qed.
#[global] Hint Resolve sh_release : shdb.
Lemma sh_release_top : forall T0 x0 x1, silent (@release_top T0 x0 x1).
Proof. intros. unfold release_top. sh. Qed.
#[global] Hint Resolve sh_release_top : shdb.
Lemma sh_destroy_handle : forall T0 x0 x1, silent (@destroy_handle T0 x0 x1).
Proof. intros. unfold destroy_handle. sh. Qed.
#[global] Hint Resolve sh_destroy_handle : shdb.
Lemma sh_make_var : forall T0 x0, silent (@make_var T0 x0).
Proof. intros. unfold make_var. sh. Qed.
#[global] Hint Resolve sh_make_var : shdb.
Lemma sh_ref_opt : forall T0 x0 x1, silent (@ref_opt T0 x0 x1).
Proof. intros. unfold ref_opt. sh. Qed.
#[global] Hint Resolve sh_ref_opt : shdb.
Lemma sh_weak_ref_opt : forall T0 x0 x1, silent (@weak_ref_opt T0 x0 x1).
Proof. intros. unfold weak_ref_opt. sh. Qed.
#[global] Hint Resolve sh_weak_ref_opt : shdb.
Lemma sh_sp_raw : forall T0 x0 x1 x2, silent (@sp_raw T0 x0 x1 x2).
Proof. intros. unfold sp_raw. sh. Qed.
#[global] Hint Resolve sh_sp_raw : shdb.
Lemma sh_sp_copy : forall T0 x0 x1, silent (@sp_copy T0 x0 x1).
Proof. intros. unfold sp_copy. sh. Qed.
#[global] Hint Resolve sh_sp_copy : shdb.
Lemma sh_sp_move : forall T0 x0, silent (@sp_move T0 x0).
Proof. intros. unfold sp_move. sh. Qed.
#[global] Hint Resolve sh_sp_move : shdb.
Lemma sh_sp_swap : forall T0 x0 x1, silent (@sp_swap T0 x0 x1).
Proof. intros. unfold sp_swap. sh. Qed.
#[global] Hint Resolve sh_sp_swap : shdb.
Lemma sh_sp_reset : forall T0 x0 x1, silent (@sp_reset T0 x0 x1).
Proof. intros. unfold sp_reset. sh. Qed.
#[global] Hint Resolve sh_sp_reset : shdb.
Lemma sh_sp_assign_conv : forall T0 x0 x1 x2, silent (@sp_assign_conv T0 x0 x1 x2).
Proof. intros. unfold sp_assign_conv. sh. Qed.
#[global] Hint Resolve sh_sp_assign_conv : shdb.
Lemma sh_sp_assign : forall T0 x0 x1 x2, silent (@sp_assign T0 x0 x1 x2).
Proof. intros. unfold sp_assign. sh. Qed.
#[global] Hint Resolve sh_sp_assign : shdb.
Lemma sh_sp_move_assign : forall T0 x0 x1 x2, silent (@sp_move_assign T0 x0 x1 x2).
Proof. intros. unfold sp_move_assign. sh. Qed.
#[global] Hint Resolve sh_sp_move_assign : shdb.
Lemma sh_sp_use_count : forall T0 x0 x1, silent (@sp_use_count T0 x0 x1).
Proof. intros. unfold sp_use_count. sh. Qed.
#[global] Hint Resolve sh_sp_use_count : shdb.
Lemma sh_sp_unique : forall T0 x0 x1, silent (@sp_unique T0 x0 x1).
Proof. intros. unfold sp_unique. sh. Qed.
#[global] Hint Resolve sh_sp_unique : shdb.
Lemma sh_sp_bool : forall T0 x0 x1, silent (@sp_bool T0 x0 x1).
Proof. intros. unfold sp_bool. sh. Qed.
#[global] Hint Resolve sh_sp_bool : shdb.
Lemma sh_sp_get : forall T0 x0, silent (@sp_get T0 x0).
Proof. intros. unfold sp_get. sh. Qed.
#[global] Hint Resolve sh_sp_get : shdb.
Lemma sh_sp_deref : forall T0 x0 x1, silent (@sp_deref T0 x0 x1).
Proof. intros. unfold sp_deref. sh. Qed.
#[global] Hint Resolve sh_sp_deref : shdb.
Lemma sh_make_shared_a (L : error -> Prop) : forall T0 x0 x1 x2 x3, honest L (@make_shared_a T0 x0 x1 x2 x3).
Proof. intros. unfold make_shared_a. sh. Qed.
#[global] Hint Resolve sh_make_shared_a : shdb.
Lemma sh_make_shared (L : error -> Prop) : forall T0 x0 x1 x2, honest L (@make_shared T0 x0 x1 x2).
Proof. intros. apply sh_make_shared_a. Qed.
#[global] Hint Resolve sh_make_shared : shdb.
Lemma sh_wp_move : forall T0 x0, silent (@wp_move T0 x0).
Proof. intros. unfold wp_move. sh. Qed.
#[global] Hint Resolve sh_wp_move : shdb.
Lemma sh_wp_copy : forall T0 x0 x1, silent (@wp_copy T0 x0 x1).
Proof. intros. unfold wp_copy. sh. Qed.
#[global] Hint Resolve sh_wp_copy : shdb.
Lemma sh_wp_reset : forall T0 x0 x1, silent (@wp_reset T0 x0 x1).
Proof. intros. unfold wp_reset. sh. Qed.
#[global] Hint Resolve sh_wp_reset : shdb.
Lemma sh_wp_assign : forall T0 x0 x1 x2, silent (@wp_assign T0 x0 x1 x2).
Proof. intros. unfold wp_assign. sh. Qed.
#[global] Hint Resolve sh_wp_assign : shdb.
Lemma sh_wp_move_assign : forall T0 x0 x1 x2, silent (@wp_move_assign T0 x0 x1 x2).
Proof. intros. unfold wp_move_assign. sh. Qed.
#[global] Hint Resolve sh_wp_move_assign : shdb.
Lemma sh_wp_use_count : forall T0 x0 x1, silent (@wp_use_count T0 x0 x1).
Proof. intros. unfold wp_use_count. sh. Qed.
#[global] Hint Resolve sh_wp_use_count : shdb.
Lemma sh_wp_expired : forall T0 x0 x1, silent (@wp_expired T0 x0 x1).
Proof. intros. unfold wp_expired. sh. Qed.
#[global] Hint Resolve sh_wp_expired : shdb.
Lemma sh_wp_lock : forall T0 x0 x1, silent (@wp_lock T0 x0 x1).
Proof. intros. unfold wp_lock. sh. Qed.
#[global] Hint Resolve sh_wp_lock : shdb.
Lemma sh_drop_var : forall T0 x0 x1, silent (@drop_var T0 x0 x1).
Proof. intros. unfold drop_var. sh. Qed.
#[global] Hint Resolve sh_drop_var : shdb.
Lemma sh_eval : forall T0 x0 x1 x2, silent (@eval T0 x0 x1 x2).
Proof. intros. induction x2; cbn [eval]; sh. Qed.
#[global] Hint Resolve sh_eval : shdb.
