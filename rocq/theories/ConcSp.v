(** * Operations of shared_ptr and weak_ptr as programs of single steps *)
From Verif Require Export Conc SpHistSpec.

Lemma st_get_block : forall b0 T0 x0, steps b0 (@get_block T0 x0).
Proof. intros. unfold get_block. stp. Defined.
#[global] Hint Resolve st_get_block : stdb.
Lemma st_put_block : forall T0 x0 x1, steps false (@put_block T0 x0 x1).
Proof. intros. unfold put_block. stp. Defined.
#[global] Hint Resolve st_put_block : stdb.
Lemma st_get_handle : forall b0 T0 x0, steps b0 (@get_handle T0 x0).
Proof. intros. unfold get_handle. stp. Defined.
#[global] Hint Resolve st_get_handle : stdb.
Lemma st_put_handle : forall T0 x0 x1, steps false (@put_handle T0 x0 x1).
Proof. intros. unfold put_handle. stp. Defined.
#[global] Hint Resolve st_put_handle : stdb.
Lemma st_cb_use_count : forall b0 T0 x0 x1, steps b0 (@cb_use_count T0 x0 x1).
Proof. intros. unfold cb_use_count. stp. Defined.
#[global] Hint Resolve st_cb_use_count : stdb.
Lemma st_add_ref : forall T0 x0 x1, steps false (@add_ref T0 x0 x1).
Proof. intros. unfold add_ref. stp. Defined.
#[global] Hint Resolve st_add_ref : stdb.
Lemma st_weak_add_ref : forall T0 x0 x1, steps false (@weak_add_ref T0 x0 x1).
Proof. intros. unfold weak_add_ref. stp. Defined.
#[global] Hint Resolve st_weak_add_ref : stdb.
Lemma st_destroy_self : forall T0 x0, steps false (@destroy_self T0 x0).
Proof. intros. unfold destroy_self. stp. Defined.
#[global] Hint Resolve st_destroy_self : stdb.
Lemma st_weak_release : forall T0 x0 x1, steps false (@weak_release T0 x0 x1).
Proof. intros. unfold weak_release. stp. Defined.
#[global] Hint Resolve st_weak_release : stdb.
Lemma st_release : forall T0 x0 x1 x2, steps false (@release T0 x0 x1 x2).
Proof. 
  intros. revert x2. induction x1 as [|n IH]; intros; cbn [release]; stpr IH. 
  match goal with |- steps false (_ ?hs) => induction hs as [|h hs IHh]; stpr IH; apply IHh end.
 Defined.
#[global] Hint Resolve st_release : stdb.
Lemma st_release_top : forall T0 x0 x1, steps false (@release_top T0 x0 x1).
Proof. intros. unfold release_top. apply (steps_size _ (fun n => release _ (S n) _)). intros. stp. Defined.
#[global] Hint Resolve st_release_top : stdb.
Lemma st_destroy_handle : forall T0 x0 x1, steps false (@destroy_handle T0 x0 x1).
Proof. intros. unfold destroy_handle. stp. Defined.
#[global] Hint Resolve st_destroy_handle : stdb.
Lemma st_make_var : forall T0 x0, steps false (@make_var T0 x0).
Proof. intros. unfold make_var. stp. Defined.
#[global] Hint Resolve st_make_var : stdb.
Lemma st_ref_opt : forall T0 x0 x1, steps false (@ref_opt T0 x0 x1).
Proof. intros. unfold ref_opt. stp. Defined.
#[global] Hint Resolve st_ref_opt : stdb.
Lemma st_weak_ref_opt : forall T0 x0 x1, steps false (@weak_ref_opt T0 x0 x1).
Proof. intros. unfold weak_ref_opt. stp. Defined.
#[global] Hint Resolve st_weak_ref_opt : stdb.
Lemma st_sp_raw : forall T0 x0 x1 x2, steps false (@sp_raw T0 x0 x1 x2).
Proof. intros. unfold sp_raw. stp. Defined.
#[global] Hint Resolve st_sp_raw : stdb.
Lemma st_sp_copy : forall T0 x0 x1, steps false (@sp_copy T0 x0 x1).
Proof. intros. unfold sp_copy. stp. Defined.
#[global] Hint Resolve st_sp_copy : stdb.
Lemma st_sp_move : forall T0 x0, steps false (@sp_move T0 x0).
Proof. intros. unfold sp_move. stp. Defined.
#[global] Hint Resolve st_sp_move : stdb.
Lemma st_sp_swap : forall T0 x0 x1, steps false (@sp_swap T0 x0 x1).
Proof. intros. unfold sp_swap. stp. Defined.
#[global] Hint Resolve st_sp_swap : stdb.
Lemma st_sp_reset : forall T0 x0 x1, steps false (@sp_reset T0 x0 x1).
Proof. intros. unfold sp_reset. stp. Defined.
#[global] Hint Resolve st_sp_reset : stdb.
Lemma st_sp_assign_conv : forall T0 x0 x1 x2, steps false (@sp_assign_conv T0 x0 x1 x2).
Proof. intros. unfold sp_assign_conv. stp. Defined.
#[global] Hint Resolve st_sp_assign_conv : stdb.
Lemma st_sp_assign : forall T0 x0 x1 x2, steps false (@sp_assign T0 x0 x1 x2).
Proof. intros. unfold sp_assign. stp. Defined.
#[global] Hint Resolve st_sp_assign : stdb.
Lemma st_sp_move_assign : forall T0 x0 x1 x2, steps false (@sp_move_assign T0 x0 x1 x2).
Proof. intros. unfold sp_move_assign. stp. Defined.
#[global] Hint Resolve st_sp_move_assign : stdb.
Lemma st_sp_use_count : forall b0 T0 x0 x1, steps b0 (@sp_use_count T0 x0 x1).
Proof. intros. unfold sp_use_count. stp. Defined.
#[global] Hint Resolve st_sp_use_count : stdb.
Lemma st_sp_unique : forall b0 T0 x0 x1, steps b0 (@sp_unique T0 x0 x1).
Proof. intros. unfold sp_unique. stp. Defined.
#[global] Hint Resolve st_sp_unique : stdb.
Lemma st_sp_bool : forall b0 T0 x0 x1, steps b0 (@sp_bool T0 x0 x1).
Proof. intros. unfold sp_bool. stp. Defined.
#[global] Hint Resolve st_sp_bool : stdb.
Lemma st_sp_get : forall b0 T0 x0, steps b0 (@sp_get T0 x0).
Proof. intros. unfold sp_get. stp. Defined.
#[global] Hint Resolve st_sp_get : stdb.
Lemma st_sp_deref : forall b0 T0 x0 x1, steps b0 (@sp_deref T0 x0 x1).
Proof. intros. unfold sp_deref. stp. Defined.
#[global] Hint Resolve st_sp_deref : stdb.
Lemma st_make_shared_a : forall T0 x0 x1 x2 x3, steps false (@make_shared_a T0 x0 x1 x2 x3).
Proof. intros. unfold make_shared_a. stp. Defined.
#[global] Hint Resolve st_make_shared_a : stdb.
Lemma st_make_shared : forall T0 x0 x1 x2, steps false (@make_shared T0 x0 x1 x2).
Proof. intros. apply st_make_shared_a. Defined.
#[global] Hint Resolve st_make_shared : stdb.
Lemma st_wp_move : forall T0 x0, steps false (@wp_move T0 x0).
Proof. intros. unfold wp_move. stp. Defined.
#[global] Hint Resolve st_wp_move : stdb.
Lemma st_wp_copy : forall T0 x0 x1, steps false (@wp_copy T0 x0 x1).
Proof. intros. unfold wp_copy. stp. Defined.
#[global] Hint Resolve st_wp_copy : stdb.
Lemma st_wp_reset : forall T0 x0 x1, steps false (@wp_reset T0 x0 x1).
Proof. intros. unfold wp_reset. stp. Defined.
#[global] Hint Resolve st_wp_reset : stdb.
Lemma st_wp_assign : forall T0 x0 x1 x2, steps false (@wp_assign T0 x0 x1 x2).
Proof. intros. unfold wp_assign. stp. Defined.
#[global] Hint Resolve st_wp_assign : stdb.
Lemma st_wp_move_assign : forall T0 x0 x1 x2, steps false (@wp_move_assign T0 x0 x1 x2).
Proof. intros. unfold wp_move_assign. stp. Defined.
#[global] Hint Resolve st_wp_move_assign : stdb.
Lemma st_wp_use_count : forall b0 T0 x0 x1, steps b0 (@wp_use_count T0 x0 x1).
Proof. intros. unfold wp_use_count. stp. Defined.
#[global] Hint Resolve st_wp_use_count : stdb.
Lemma st_wp_expired : forall b0 T0 x0 x1, steps b0 (@wp_expired T0 x0 x1).
Proof. intros. unfold wp_expired. stp. Defined.
#[global] Hint Resolve st_wp_expired : stdb.
Lemma st_wp_lock : forall T0 x0 x1, steps false (@wp_lock T0 x0 x1).
Proof. intros. unfold wp_lock. stp. Defined.
#[global] Hint Resolve st_wp_lock : stdb.
Lemma st_drop_var : forall T0 x0 x1, steps false (@drop_var T0 x0 x1).
Proof. intros. unfold drop_var. stp. Defined.
#[global] Hint Resolve st_drop_var : stdb.
Lemma st_eval : forall b0 T0 x0 x1 x2, steps b0 (@eval T0 x0 x1 x2).
Proof. intros. induction x2; cbn [eval]; stp. Defined.
#[global] Hint Resolve st_eval : stdb.
