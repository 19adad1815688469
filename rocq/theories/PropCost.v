(** * Property C69: how many elements vector constructs

    [w_ctors] counts every construction of an element: of the new ones and of
    those that are made when elements are moved to another place. *)
From Verif Require Import VecExtra VecCost.

(** insert() at position [i] of [n] elements makes room for the new element and
    moves the [n - i] elements behind it; if the storage is full, it moves all
    of them once more. *)
Theorem C69_insert V (cf : cfg V) v l cap hv hf i a x w :
  cfg_ok cf -> vec_owns cf v l cap hv -> heap_is w hv hf -> w_err w = None -> i <= length l -> arg_outside hf a x ->
  runs (vec_insert cf v (vec_pos v i) a) w (fun _ w' => w_err w' = None ->
    w_ctors w' <= w_ctors w + 1 + (length l - i) + (if decide (cap = length l) then length l else 0)).
Proof.
  intros Hcf Ho Hh He Hi Ha.
  destruct (runs_insert_value cf v l cap hv hf i a x w (fun _ _ => True)) as (r & w' & Hr & _); try done; [by left|].
  exists r, w'. split; [exact Hr|]. intros He'. pose proof (insert_cost cf v l cap hv hf i a w r w' Hcf Ho Hh He Hi Hr He'). lia.
Qed.
Print Assumptions C69_insert.

(** reserve() moves each element at most once *)
Theorem C69_reserve V (cf : cfg V) v l cap hv hf n w :
  cfg_ok cf -> vec_owns cf v l cap hv -> heap_is w hv hf -> w_err w = None -> bytes_fit cf n ->
  runs (vec_reserve cf v n) w (fun _ w' => w_err w' = None -> w_ctors w' <= w_ctors w + length l).
Proof.
  intros Hcf Ho Hh He Hn.
  assert (poff (m_finish v) = length l) as Hpf.
  { by destruct Ho as [(_ & -> & _ & -> & _)|(b & _ & -> & _)]. }
  assert (runs (vec_reserve cf v n) w (fun _ _ => True)) as Hr by (by eapply runs_reserve).
  rewrite <-Hpf. eapply runs_mono; [apply runs_spend; [exact Hr|apply spends_reserve]|]. by intros ? ? [_ ?].
Qed.
Print Assumptions C69_reserve.

Section push.
  Context {V : Type} (cf : cfg V).
  Notation W := (world (vblock V)).

  Lemma push_cost v l cap hv hf x w (Q : vec_obj -> W -> Prop) :
    cfg_ok cf -> vec_owns cf v l cap hv -> heap_is w hv hf -> w_err w = None ->
    (forall v' w', push_post cf v l cap hf x w v' w' ->
       (w_err w' = None -> w_ctors w' <= w_ctors w + 1 + (if decide (cap = length l) then length l else 0)) -> Q v' w') ->
    runs (vec_push_back cf v (AVal x)) w Q.
  Proof.
    intros Hcf Ho Hh He HQ. unfold vec_push_back, vec_insert. rewrite (owns_pos_end cf _ _ _ _ Ho). rbind.
    destruct (runs_insert_value cf v l cap hv hf (length l) (AVal x) x w (insert_post cf v l cap hf (length l) x w))
      as (r & w' & Hr & Hp); try done; [by left|].
    exists r, w'. split; [exact Hr|]. apply runs_ret. apply HQ; [by apply insert_post_push|].
    intros He'. pose proof (insert_cost cf v l cap hv hf (length l) (AVal x) w r w' Hcf Ho Hh He ltac:(lia) Hr He'). lia.
  Qed.

  (** [m] elements were moved so far *)
  Definition moved_ok (m n cap : nat) : Prop := m <= 3 * n /\ m <= 2 * cap.

  Lemma push_all_cost xs v l cap hv hf w m (Q : _ -> W -> Prop) :
    cfg_ok cf -> growth_ok cf -> vec_owns cf v l cap hv -> heap_is w hv hf -> moved_ok m (length l) cap ->
    (forall v' es w', (Forall (fun e => e = None) es -> exists m',
       w_ctors w' + m <= w_ctors w + length xs + m' /\ m' <= 3 * (length l + length xs)) -> Q (v', es) w') ->
    runs (exec_ops cf (map OpPush xs) v) w Q.
  Proof.
    intros Hcf Hg. revert v l cap hv w m Q. induction xs as [|x xs IH]; intros v l cap hv w m Q Ho Hh [Hm1 Hm2] HQ; simpl.
    - apply runs_ret. apply HQ. intros _. exists m. lia.
    - rbind. apply runs_put_err. rbind. unfold exec_op. eapply push_cost; [done..|].
      intros v1 w1 (_ & _ & _ & [(He & hv1 & Ho1 & Hh1)|(e & He & _ & cap1 & hv1 & Ho1 & Hh1)]) Hc;
        rbind; apply runs_get_err; rbind.
      + specialize (Hc He). simpl in Hc. pose proof (owns_le _ _ _ _ _ Ho) as Hle.
        assert (exists m1, w_ctors w1 + m <= w_ctors w + 1 + m1 /\
          moved_ok m1 (length (l ++ [x])) (if decide (cap = length l) then grow_cap cap (S cap) else cap)) as (m1 & Hm & Hok).
        { unfold moved_ok. rewrite app_length. simpl. case_decide as Hf.
          - exists (m + length l). pose proof (grow_cap_geometric cap (growth_fits _ _ _ _ _ Hcf Hg Ho)). lia.
          - exists m. lia. }
        eapply (IH v1 (l ++ [x])); [done..|]. intros v2 es w2 H2. apply runs_ret. apply HQ.
        intros HF. inversion_clear HF. destruct H2 as (m' & H3 & H4); [done|]. exists m'.
        rewrite app_length in H4. simpl in H4. simpl. lia.
      + eapply (runs_exec_ops cf (map OpPush xs) v1 l cap1 hv1 hf); [done..| |done|done|].
        { apply Forall_forall. intros op Hop. apply elem_of_list_fmap in Hop as (y & -> & _). done. }
        intros v2 es l2 cap2 hv2 w2 _ _ _. apply runs_ret. apply HQ. intros HF. inversion_clear HF. congruence.
  Qed.
End push.

(** Building a vector of [n] elements by push_back() constructs at most [4 * n]
    elements in total: appending is constant on average. *)
Theorem C69_append V (cf : cfg V) al xs w :
  cfg_ok cf -> growth_ok cf ->
  runs (exec_ops cf (map OpPush xs) (vec_new al)) w (fun r w' =>
    Forall (fun e => e = None) r.2 -> w_ctors w' <= w_ctors w + 4 * length xs).
Proof.
  intros Hcf Hg. eapply (push_all_cost cf xs (vec_new al) [] 0 ∅ (w_heap w) w 0); try done.
  - apply owns_new.
  - by apply heap_is_empty.
  - intros v' es w' H HF. destruct (H HF) as (m' & H1 & H2). simpl in H2. lia.
Qed.
Print Assumptions C69_append.

(** While the capacity suffices, each push_back() constructs the new element
    and nothing else. *)
Theorem C69_append_reserved V (cf : cfg V) v l cap hv hf xs w :
  cfg_ok cf -> growth_ok cf -> vec_owns cf v l cap hv -> heap_is w hv hf -> length l + length xs <= cap ->
  runs (exec_ops cf (map OpPush xs) v) w (fun r w' =>
    Forall (fun e => e = None) r.2 -> w_ctors w' <= w_ctors w + length xs).
Proof.
  intros Hcf Hg. revert v l hv w. induction xs as [|x xs IH]; intros v l hv w Ho Hh Hcap; simpl.
  - apply runs_ret. simpl. lia.
  - simpl in Hcap. rbind. apply runs_put_err. rbind. unfold exec_op. eapply push_cost; [done..|].
    intros v1 w1 (_ & _ & _ & [(He & hv1 & Ho1 & Hh1)|(e & He & _ & cap1 & hv1 & Ho1 & Hh1)]) Hc;
      rbind; apply runs_get_err; rbind.
    + specialize (Hc He). simpl in Hc. rewrite decide_False in Ho1, Hc by lia.
      eapply runs_mono; [eapply (IH v1 (l ++ [x])); [done..|rewrite app_length; simpl; lia]|].
      intros r w2 H2. apply runs_ret. simpl. intros HF. inversion_clear HF. specialize (H2 H0). lia.
    + eapply (runs_exec_ops cf (map OpPush xs) v1 l cap1 hv1 hf); [done..| |done|done|].
      { apply Forall_forall. intros op Hop. apply elem_of_list_fmap in Hop as (y & -> & _). done. }
      intros v2 es l2 cap2 hv2 w2 _ _ _. apply runs_ret. simpl. intros HF. inversion_clear HF. congruence.
Qed.
Print Assumptions C69_append_reserved.

Definition ccD : cfg nat := Cfg true 8 (2^62) 0 Direct 0.
(** 20 elements: 36 are moved while the vector grows to 1, 3, 6, 10, 16 and 25 *)
Example C69_example :
  cfg_ok ccD /\ growth_ok ccD /\
  runs (exec_ops ccD (map OpPush (seq 0 20)) (vec_new 0)) (World ∅ [] None 0 0) (fun r w' =>
    Forall (fun e => e = None) r.2 /\ w_ctors w' = 56) /\
  runs (let! v := vec_reserve ccD (vec_new 0) 20 in exec_ops ccD (map OpPush (seq 0 20)) v) (World ∅ [] None 0 0) (fun r w' =>
    Forall (fun e => e = None) r.2 /\ w_ctors w' = 20).
Proof.
  split; [repeat split; vm_compute; congruence|]. split; [vm_compute; congruence|]. split; compute_run.
Qed.
