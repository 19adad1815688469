(** * Observers, comparison, moves and the exception-enabled wrapper *)
From Verif Require Export VecOps.

#[global] Arguments vec_copy : simpl never.

Section more.
  Context {V : Type} (cf : cfg V).
  Notation W := (world (vblock V)).
  Implicit Types w : W.
  Implicit Types h : gmap addr (vblock V).

  (** ** Observers *)

  Lemma heap_sub w hv hf : heap_is w hv hf -> hv ⊆ w_heap w.
  Proof. intros [-> Hd]. by apply map_union_subseteq_l. Qed.

  Lemma runs_read_elem v l cap hv i x w (Q : _ -> W -> Prop) :
    vec_owns cf v l cap hv -> hv ⊆ w_heap w -> l !! i = Some x ->
    Q x w -> runs (read (vec_pos v i)) w Q.
  Proof.
    intros Ho Hsub Hi HQ. pose proof (lookup_lt_Some _ _ _ Hi) as Hlt. unfold vec_pos.
    destruct Ho as [(_ & _ & _ & -> & _)|(b & Hs & _ & _ & Hle & _ & ->)]; [done|].
    rewrite Hs. eapply runs_read.
    - apply (lookup_weaken _ _ _ _ (lookup_singleton b _) Hsub).
    - simpl. lia.
    - simpl. by rewrite lookup_map_seq_0.
    - done.
  Qed.

  Lemma runs_index v l cap hv i w (Q : _ -> W -> Prop) :
    vec_owns cf v l cap hv -> hv ⊆ w_heap w -> i < length l ->
    Q (vec_pos v i) w -> runs (vec_index cf v i) w Q.
  Proof.
    intros Ho Hsub Hlt HQ. unfold vec_index. rbind. eapply owns_size; [done|].
    rbind. apply runs_assert; [by apply bool_decide_eq_true_2|].
    unfold vec_pos in HQ.
    destruct Ho as [(_ & _ & _ & -> & _)|(b & Hs & _ & _ & Hle & _ & ->)]; [simpl in *; lia|].
    rewrite Hs in *. eapply runs_padd.
    - apply (lookup_weaken _ _ _ _ (lookup_singleton b _) Hsub).
    - simpl. lia.
    - done.
  Qed.

  Lemma runs_at v l cap hv i x w (Q : _ -> W -> Prop) :
    vec_owns cf v l cap hv -> hv ⊆ w_heap w -> l !! i = Some x ->
    Q x w -> runs (vec_at cf v i) w Q.
  Proof.
    intros Ho Hsub Hi HQ. unfold vec_at. rbind.
    eapply runs_index; [done..|by eapply lookup_lt_Some|].
    by eapply runs_read_elem.
  Qed.

  Lemma owns_empty v l cap hv : vec_owns cf v l cap hv -> vec_empty v = bool_decide (l = []).
  Proof.
    intros Ho. unfold vec_empty. apply bool_decide_ext.
    destruct Ho as [(-> & -> & _ & -> & _)|(b & -> & -> & _)]; [done|].
    destruct l; simpl; split; congruence.
  Qed.

  Lemma owns_begin v l cap hv : vec_owns cf v l cap hv -> m_start v = vec_pos v 0.
  Proof. unfold vec_pos. by intros [(-> & _)|(b & -> & _)]. Qed.

  Lemma runs_front v x l cap hv w (Q : _ -> W -> Prop) :
    vec_owns cf v (x :: l) cap hv -> hv ⊆ w_heap w -> Q x w -> runs (vec_front cf v) w Q.
  Proof.
    intros Ho Hsub HQ. unfold vec_front. rbind. apply runs_assert.
    { by rewrite (owns_empty _ _ _ _ Ho). }
    rewrite (owns_begin _ _ _ _ Ho). by eapply runs_read_elem.
  Qed.

  Lemma runs_back v x l cap hv w (Q : _ -> W -> Prop) :
    vec_owns cf v (l ++ [x]) cap hv -> hv ⊆ w_heap w -> Q x w -> runs (vec_back cf v) w Q.
  Proof.
    intros Ho Hsub HQ. unfold vec_back. rbind. apply runs_assert.
    { rewrite (owns_empty _ _ _ _ Ho), bool_decide_eq_false_2; [done|].
      by destruct l. }
    pose proof Ho as [(_ & _ & _ & Hnil & _)|(b & Hs & Hf & _)]; [by destruct l|].
    rewrite Hf, app_length. simpl. rewrite Nat.add_1_r. rbind. apply runs_ret.
    replace (Ptr b (length l)) with (vec_pos v (length l)) by (unfold vec_pos; by rewrite Hs).
    eapply runs_read_elem; [done..| |done]. apply list_lookup_middle; done.
  Qed.

  (** ** Comparison *)

  Lemma runs_eq_loop eqv fuel v l capv hv o lo capo ho i w (Q : _ -> W -> Prop) :
    vec_owns cf v l capv hv -> vec_owns cf o lo capo ho -> hv ⊆ w_heap w -> ho ⊆ w_heap w ->
    length l = length lo -> i <= length l -> length l - i < fuel ->
    (forall b, (b = true <-> forall k x y, i <= k -> l !! k = Some x -> lo !! k = Some y -> eqv x y = true) -> Q b w) ->
    runs (eq_loop eqv fuel (vec_pos v i) (m_finish v) (vec_pos o i)) w Q.
  Proof.
    intros Ho Hoo Hsv Hso Hlen. revert i. induction fuel as [|fuel IH]; intros i Hi Hfuel HQ; [lia|].
    simpl. rewrite (owns_pos_end _ _ _ _ _ Ho). case_decide as Hd.
    - apply runs_ret. apply HQ. split; [|done]. intros _ k x y Hk Hx. apply lookup_lt_Some in Hx.
      destruct Ho as [(_ & _ & _ & -> & _)|(b & Hs & _)]; [simpl in *; lia|].
      unfold vec_pos in Hd. rewrite Hs in Hd. simplify_eq. lia.
    - assert (i < length l).
      { assert (i <> length l) by (intros ->; done). lia. }
      destruct (lookup_lt_is_Some_2 l i) as [x Hx]; [done|].
      destruct (lookup_lt_is_Some_2 lo i) as [y Hy]; [lia|].
      rbind. eapply (runs_read_elem v); [done..|].
      rbind. eapply (runs_read_elem o); [done..|].
      destruct (eqv x y) eqn:Exy.
      + assert (Hstep : forall u lu capu hu, vec_owns cf u lu capu hu -> hu ⊆ w_heap w -> i < length lu ->
                  forall (Q' : _ -> W -> Prop), Q' (vec_pos u (S i)) w -> runs (padd (vec_pos u i) 1) w Q').
        { intros u lu capu hu Hu Hsu Hiu Q' HQ'. unfold vec_pos in *.
          destruct Hu as [(_ & _ & _ & -> & _)|(b & Hs & _ & _ & Hle & _ & ->)]; [simpl in *; lia|].
          rewrite Hs in *. eapply runs_padd.
          - apply (lookup_weaken _ _ _ _ (lookup_singleton b _) Hsu).
          - simpl. lia.
          - by replace (i + 1) with (S i) by lia. }
        rbind. eapply (Hstep v); [done..|]. rbind. eapply (Hstep o); [done..|lia|].
        rewrite <-(owns_pos_end _ _ _ _ _ Ho).
        apply IH; [lia|lia|]. intros b Hb. apply HQ. rewrite Hb. split.
        * intros Hall k x' y' Hk Hx' Hy'. destruct (decide (k = i)) as [->|]; [by simplify_eq|].
          apply (Hall k); [lia|done..].
        * intros Hall k x' y' Hk. apply Hall. lia.
      + apply runs_ret. apply HQ. split; [done|]. intros Hall.
        rewrite (Hall i x y) in Exy; done.
  Qed.

  Lemma runs_vec_equal eqv v l capv hv o lo capo ho w (Q : _ -> W -> Prop) :
    vec_owns cf v l capv hv -> vec_owns cf o lo capo ho -> hv ⊆ w_heap w -> ho ⊆ w_heap w ->
    (forall b, (b = true <-> Forall2 (fun x y => eqv x y = true) l lo) -> Q b w) ->
    runs (vec_equal eqv v o) w Q.
  Proof.
    intros Ho Hoo Hsv Hso HQ. unfold vec_equal.
    rbind. eapply owns_size; [exact Ho|]. rbind. eapply owns_size; [exact Hoo|].
    case_decide as Hlen.
    - rewrite (owns_begin _ _ _ _ Ho), (owns_begin _ _ _ _ Hoo).
      eapply runs_eq_loop; [done..|lia| |].
      { destruct Ho as [(_ & -> & _ & -> & _)|(b & _ & -> & _)]; simpl; lia. }
      intros b Hb. apply HQ. rewrite Hb, Forall2_same_length_lookup. split.
      + intros Hall. split; [done|]. intros i x y. apply Hall. lia.
      + intros [_ Hall] k x y _. apply Hall.
    - apply runs_ret. apply HQ. split; [done|]. intros HF. by apply Forall2_length in HF.
  Qed.

  (** ** Moves *)

  Lemma owns_move v l cap hv al :
    vec_owns cf v l cap hv -> m_allocator v = al ->
    vec_owns cf (Vec al (m_start v) (m_finish v) (m_end_of_storage v)) l cap hv.
  Proof. intros Ho <-. destruct v. exact Ho. Qed.

  Lemma owns_nulls al : vec_owns cf (Vec al Null Null Null) [] 0 ∅.
  Proof. by left. Qed.

  Lemma runs_move_assign v l cap hv o lo capo ho hf w (Q : _ -> W -> Prop) :
    vec_owns cf v l cap hv -> vec_owns cf o lo capo ho -> m_allocator v = m_allocator o ->
    heap_is w hv (ho ∪ hf) -> ho ##ₘ hf ->
    (forall v' o' w', vec_owns cf v' lo capo ho -> vec_owns cf o' [] 0 ∅ ->
       m_start v' = m_start o -> m_allocator v' = m_allocator o -> m_allocator o' = m_allocator o ->
       w' = set_heap (ho ∪ hf) w -> Q (v', o') w') ->
    runs (vec_move_assign v o) w Q.
  Proof.
    intros Ho Hoo Hal Hh Hd HQ. unfold vec_move_assign, vec_move_ctor, swap_data. simpl.
    rbind. eapply runs_vec_destroy; [by apply owns_move|done|]. apply runs_ret. apply HQ; try done.
    - by apply owns_move.
    - by left.
  Qed.

  Lemma runs_move_assign_self v l cap hv hf w (Q : _ -> W -> Prop) :
    vec_owns cf v l cap hv -> heap_is w hv hf ->
    (forall v' w', vec_owns cf v' [] 0 ∅ -> m_allocator v' = m_allocator v ->
       w' = set_heap hf w -> Q v' w') ->
    runs (vec_move_assign_self v) w Q.
  Proof.
    intros Ho Hh HQ. unfold vec_move_assign_self, vec_move_ctor, swap_data. simpl.
    rbind. eapply runs_vec_destroy; [by apply owns_move|done|]. apply runs_ret. apply HQ; try done.
    by left.
  Qed.

  (** ** Exception-enabled wrapper *)

  Lemma runs_with_local_err {A} (m : M (vblock V) A) w (Q : _ -> W -> Prop) :
    runs m (set_err None w) (fun a w' => Q (a, w_err w') (set_err (w_err w) w')) ->
    runs (with_local_err m) w Q.
  Proof.
    intros H. unfold with_local_err. rbind. apply runs_get_err. rbind. apply runs_put_err.
    rbind. eapply runs_mono; [exact H|]. intros a w' HQ.
    rbind. apply runs_get_err. rbind. apply runs_put_err. by apply runs_ret.
  Qed.

  Lemma runs_hvec_copy_ctor o lo capo ho hf w (Q : _ -> W -> Prop) :
    cfg_ok cf -> vec_owns cf o lo capo ho -> heap_is w ho hf ->
    (forall v' cap' hv' w', vec_owns cf v' lo cap' hv' -> heap_is w' hv' (ho ∪ hf) -> w_err w' = w_err w ->
       m_allocator v' = c_dflt cf -> Q (inl v') w') ->
    (forall e w', w_heap w' = w_heap w -> w_err w' = w_err w -> Q (inr e) w') ->
    runs (hvec_copy_ctor cf o) w Q.
  Proof.
    intros Hcf Hoo Hh Hok Hfail. unfold hvec_copy_ctor. rbind. apply runs_with_local_err.
    destruct Hh as [Hw Hd].
    eapply (runs_vec_copy cf (vec_new (m_allocator o)) [] 0 ∅ o lo capo ho (ho ∪ hf)); try done.
    - apply owns_new.
    - by apply heap_is_empty.
    - rewrite (left_id_L ∅ (∪)). by apply map_union_subseteq_l.
    - intros v' cap' hv' w' k Hal Hk Ho' Hh' [[He ->]|(e & He & _)]; rewrite He.
      + apply runs_ret. rewrite take_ge in Ho' by done. eapply Hok; try done.
      + rbind. eapply runs_vec_destroy; [done|exact Hh'|]. apply runs_ret. apply Hfail; [by rewrite Hw|done].
  Qed.

  Lemma runs_hvec_copy_assign v l cap hv o lo capo ho hf w (Q : _ -> W -> Prop) :
    cfg_ok cf -> vec_owns cf v l cap hv -> heap_is w hv hf ->
    vec_owns cf o lo capo ho -> ho ⊆ hv ∪ hf ->
    (forall v' cap' hv' w', vec_owns cf v' lo cap' hv' -> heap_is w' hv' hf -> w_err w' = w_err w ->
       m_allocator v' = c_dflt cf -> Q (v', None) w') ->
    (forall e w', w_heap w' = w_heap w -> w_err w' = w_err w -> Q (v, Some e) w') ->
    runs (hvec_copy_assign cf v o) w Q.
  Proof.
    intros Hcf Ho [Hw Hd] Hoo Hsub Hok Hfail. unfold hvec_copy_assign.
    assert (Hs : w_heap w = ho ∪ (w_heap w ∖ ho)).
    { symmetry. apply map_difference_union. by rewrite Hw. }
    rbind. eapply (runs_hvec_copy_ctor o lo capo ho (w_heap w ∖ ho)); try done.
    - split; [done|]. apply map_disjoint_difference_r; by rewrite Hw.
    - intros v' cap' hv' w' Ho' [Hw' Hd'] He' Hal'. rewrite <-Hs in *. rewrite Hw in Hw', Hd'.
      unfold vec_swap, swap_data. simpl.
      rbind. eapply runs_destroy_tmp; [by apply owns_move|done|split; done|].
      intros w'' Hh'' He'' _ _ _. apply runs_ret. eapply Hok; [by apply owns_move|done|by rewrite He''|done].
    - intros e w' Hw' He'. apply runs_ret. by apply Hfail.
  Qed.

  Lemma runs_hvec_push_back v l cap hv hf a x w (Q : _ -> W -> Prop) :
    cfg_ok cf -> vec_owns cf v l cap hv -> heap_is w hv hf ->
    arg_good v l cap (length l) hf a x ->
    (forall v' cap' hv' w', vec_owns cf v' (l ++ [x]) cap' hv' -> heap_is w' hv' hf -> w_err w' = w_err w ->
       Q (v', None) w') ->
    (forall e v' cap' hv' w', vec_owns cf v' l cap' hv' -> heap_is w' hv' hf -> w_err w' = w_err w ->
       Q (v', Some e) w') ->
    runs (hvec_push_back cf v a) w Q.
  Proof.
    intros Hcf Ho Hh Ha Hok Hfail. unfold hvec_push_back. apply runs_with_local_err.
    eapply runs_push_back; try done.
    intros v' w' (_ & _ & _ & [(He & hv' & Ho' & Hh')|(e & He & _ & cap'' & hv' & Ho' & Hh')]); rewrite He.
    - by eapply Hok.
    - by eapply Hfail.
  Qed.
End more.
