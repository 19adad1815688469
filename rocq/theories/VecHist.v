(** * Histories of vector operations: proofs *)
From Verif Require Export VecMore VecHistSpec.

#[global] Arguments exec_op : simpl never.

Section hist.
  Context {V : Type} (cf : cfg V).
  Notation W := (world (vblock V)).
  Implicit Types w : W.

  Lemma owns_shows v l cap hv hf w :
    vec_owns cf v l cap hv -> heap_is w hv hf -> vec_shows cf w v l.
  Proof.
    intros Ho Hh. pose proof (heap_sub _ _ _ Hh) as Hsub.
    assert (Hdone : forall A (m : M (vblock V) A) a,
      (forall Q : A -> W -> Prop, Q a w -> runs m w Q) -> m w = Done a w).
    { intros A m a H. destruct (H (fun a' w' => a' = a /\ w' = w)) as (a' & w' & E & -> & ->); done. }
    repeat split.
    - apply Hdone. intros Q. by eapply owns_size.
    - exists cap. split; [|by eapply owns_le]. apply Hdone. intros Q. by eapply owns_capacity.
    - by eapply owns_empty.
    - intros i x Hi. apply Hdone. intros Q. by eapply runs_at.
    - intros x l0 ->. apply Hdone. intros Q. by eapply runs_front.
    - intros x l0 ->. apply Hdone. intros Q. by eapply runs_back.
  Qed.

  Lemma growth_fits v l cap hv : cfg_ok cf -> growth_ok cf -> vec_owns cf v l cap hv -> fits (3 * (cap + 1)).
  Proof.
    intros Hcf Hg Ho. pose proof (owns_cap_ok _ _ _ _ _ Hcf Ho) as Hc.
    unfold growth_ok, cap_ok, fits in *. destruct Hcf as [[? ?] ?]. nia.
  Qed.

  Lemma runs_pos_at v l cap hv hf i w (Q : _ -> W -> Prop) :
    vec_owns cf v l cap hv -> heap_is w hv hf ->
    Q (vec_pos v (i `min` length l)) w -> runs (pos_at v i) w Q.
  Proof.
    intros Ho Hh HQ. unfold pos_at. rbind. eapply owns_size; [done|].
    pose proof (heap_sub _ _ _ Hh) as Hsub. unfold vec_pos, vec_begin in *.
    destruct Ho as [(Hs & _ & _ & -> & _)|(b & Hs & _ & _ & Hle & _ & ->)]; rewrite Hs in *.
    - rewrite Nat.min_0_r in *. by apply runs_ret.
    - eapply runs_padd.
      + apply (lookup_weaken _ _ _ _ (lookup_singleton b _) Hsub).
      + simpl. lia.
      + done.
  Qed.

  Lemma args_vals hf (xs : list V) : args_outside hf (map AVal xs) xs.
  Proof. unfold args_outside. induction xs; constructor; simpl; auto. Qed.

  Lemma take_min {A} i (l : list A) : take (i `min` length l) l = take i l.
  Proof.
    destruct (decide (i <= length l)).
    - by rewrite Nat.min_l.
    - rewrite Nat.min_r by lia. rewrite !take_ge by lia. done.
  Qed.
  Lemma drop_min {A} i (l : list A) : drop (i `min` length l) l = drop i l.
  Proof.
    destruct (decide (i <= length l)).
    - by rewrite Nat.min_l.
    - rewrite Nat.min_r by lia. rewrite !drop_ge by lia. done.
  Qed.

  Lemma runs_exec_op op v l cap hv hf w (Q : _ -> W -> Prop) :
    cfg_ok cf -> growth_ok cf -> vop_legal cf op ->
    vec_owns cf v l cap hv -> heap_is w hv hf -> w_err w = None ->
    (forall v' l' cap' hv' w', vec_owns cf v' l' cap' hv' -> heap_is w' hv' hf ->
       vop_spec op l (w_err w') l' -> Q v' w') ->
    runs (exec_op cf op v) w Q.
  Proof.
    intros Hcf Hg Hlegal Ho Hh He HQ.
    assert (Hpush : forall x v' w', push_post cf v l cap hf x w v' w' ->
      exists l' cap' hv', vec_owns cf v' l' cap' hv' /\ heap_is w' hv' hf /\
        l' = match w_err w' with None => l ++ [x] | Some _ => l end).
    { intros x v' w' (_ & _ & _ & [(He' & hv' & Ho' & Hh')|(e & He' & _ & cap'' & hv' & Ho' & Hh')]);
        rewrite He'; eauto 10. }
    unfold exec_op. destruct op as [x|x|x|i x|i xs|n| |n x|n x|xs| |]; simpl in Hlegal.
    - eapply runs_push_back; [done..|by left|]. intros v' w' Hp.
      destruct (Hpush _ _ _ Hp) as (l' & cap' & hv' & Ho' & Hh' & ->). by eapply HQ.
    - eapply runs_emplace_back; [done..|by left|]. intros v' w' Hp.
      destruct (Hpush _ _ _ Hp) as (l' & cap' & hv' & Ho' & Hh' & ->). by eapply HQ.
    - unfold vec_insert, vec_end. rewrite (owns_pos_end _ _ _ _ _ Ho). rbind.
      eapply runs_insert_value; [done..|by left|]. intros r w' Hp. apply runs_ret.
      destruct (Hpush _ _ _ (insert_post_push _ _ _ _ _ _ _ _ _ Hp)) as (l' & cap' & hv' & Ho' & Hh' & ->).
      by eapply HQ.
    - rbind. eapply runs_pos_at; [done..|]. unfold vec_insert. rbind.
      eapply runs_insert_value; [done..|lia|by left|]. intros r w' (_ & _ & _ & Hp). apply runs_ret.
      destruct Hp as [(He' & _ & hv' & Ho' & Hh')|(e & He' & _ & _ & [(cap'' & hv' & Ho' & Hh')|(_ & Hk & _)])];
        [..|done].
      + eapply HQ; [done..|]. simpl. rewrite He', take_min, drop_min. done.
      + eapply HQ; [done..|]. simpl. by rewrite He'.
    - rbind. eapply runs_pos_at; [done..|].
      eapply runs_insert_range; [done..|lia|apply args_vals|]. intros v' w' _.
      rewrite take_min, drop_min.
      intros [(He' & cap' & hv' & Ho' & Hh')|(e & He' & k & Hk & [(cap'' & hv' & Ho' & Hh')|(_ & Hn & _)])];
        [..|done].
      + eapply HQ; [done..|]. simpl. by rewrite He'.
      + eapply HQ; [done..|]. simpl. rewrite He'. eauto.
    - eapply runs_reserve; [done..| | |].
      + intros _. by eapply HQ.
      + intros v' b hv' w' ???? Ho' Hh' ??. by eapply HQ.
      + intros w' e _ Hw' ??. eapply HQ; [done| |done]. unfold heap_is. by rewrite Hw'.
    - eapply runs_shrink; [done..| | |].
      + intros _. by eapply HQ.
      + intros v' b hv' w' ???? Ho' Hh' ??. by eapply HQ.
      + intros w' e _ Hw' ??. eapply HQ; [done| |done]. unfold heap_is. by rewrite Hw'.
    - eapply runs_resize; [done..| |by simpl| |].
      + right. by eapply growth_fits.
      + intros v' hv' w' Hn _ _ Ho' Hh' He' _ _. eapply HQ; [done..|]. simpl. by rewrite decide_True.
      + intros v' cap' hv' w' k Hn _ Hk Ho' Hh' _ Hr. eapply HQ; [done..|]. simpl.
        rewrite decide_False by lia. destruct Hr as [(-> & -> & _)|(e & -> & Hk')]; eauto.
    - eapply (runs_assign_n cf n v l cap hv hf (AVal x) x); [done..|by simpl|].
      intros v' cap' hv' w' k _ Hk Ho' Hh' Hr. eapply HQ; [done..|]. simpl.
      destruct Hr as [(-> & ->)|(e & -> & Hk')]; eauto.
    - eapply (runs_assign_input cf _ xs v l cap hv hf); [done..|apply args_vals|].
      intros v' cap' hv' w' k _ Hk Ho' Hh' Hr. eapply HQ; [done..|]. simpl.
      destruct Hr as [(-> & ->)|(e & -> & Hk')]; eauto. by rewrite take_ge.
    - eapply (runs_vec_copy cf v l cap hv v l cap hv hf); [done..| |].
      { by apply map_union_subseteq_l. }
      intros v' cap' hv' w' k _ Hk Ho' Hh' Hr. eapply HQ; [done..|]. simpl.
      destruct Hr as [(-> & ->)|(e & -> & _)]; eauto. by rewrite take_ge.
    - eapply runs_vec_clear; [done..|]. intros v' hv' w' Ho' Hh' He' _ _ _. eapply HQ; [done..|]. simpl.
      by rewrite He', He.
  Qed.

  Lemma runs_exec_ops ops v l cap hv hf w (Q : _ -> W -> Prop) :
    cfg_ok cf -> growth_ok cf -> Forall (vop_legal cf) ops ->
    vec_owns cf v l cap hv -> heap_is w hv hf ->
    (forall v' es l' cap' hv' w', vec_owns cf v' l' cap' hv' -> heap_is w' hv' hf ->
       vops_spec ops l es l' -> Q (v', es) w') ->
    runs (exec_ops cf ops v) w Q.
  Proof.
    intros Hcf Hg. revert v l cap hv w Q.
    induction ops as [|op ops IH]; intros v l cap hv w Q Hlegal Ho Hh HQ; simpl.
    - apply runs_ret. by eapply HQ.
    - inversion_clear Hlegal. rbind. apply runs_put_err. rbind.
      eapply runs_exec_op; [done..|].
      intros v1 l1 cap1 hv1 w1 Ho1 Hh1 Hs1. rbind. apply runs_get_err. rbind.
      eapply IH; [done..|]. intros v2 es l2 cap2 hv2 w2 Ho2 Hh2 Hs2. apply runs_ret.
      eapply HQ; [done..|]. simpl. eauto.
  Qed.

  (** ** Growth *)

  Lemma grow_cap_geometric cap : fits (3 * (cap + 1)) ->
    3 * (cap + 2) <= 2 * (grow_cap cap (S cap) + 2).
  Proof.
    intros Hf. unfold grow_cap.
    rewrite (sz_fits (cap + 1)) by (unfold fits in *; lia).
    rewrite sz_fits by (unfold fits in *; lia).
    pose proof (div2_ge ((cap + 1) * 3)). case_decide; lia.
  Qed.

  (** [k] allocations so far and capacity [cap]: (3/2)^k <= cap/2 + 1. *)
  Definition growth_inv (k cap : nat) : Prop := 2 * 3 ^ k <= 2 ^ k * (cap + 2).

  Lemma growth_inv_step k cap : fits (3 * (cap + 1)) ->
    growth_inv k cap -> growth_inv (S k) (grow_cap cap (S cap)).
  Proof.
    intros Hf Hi. pose proof (grow_cap_geometric cap Hf) as Hg. unfold growth_inv in *.
    rewrite !Nat.pow_succ_r'. remember (grow_cap cap (S cap)) as c'. clear Heqc'. nia.
  Qed.

  (** Bound on the number [k] of allocations after [n] appends. *)
  Definition allocs_bound (k n : nat) : Prop := k = 0 \/ 2 * 3 ^ (k - 1) <= 2 ^ (k - 1) * (n + 1).

  Lemma runs_push_all xs v l cap hv hf w k0 (Q : _ -> W -> Prop) :
    cfg_ok cf -> growth_ok cf -> vec_owns cf v l cap hv -> heap_is w hv hf ->
    growth_inv k0 cap -> allocs_bound k0 (length l) ->
    (forall v' es w',
       (Forall (fun e => e = None) es -> exists k cap' hv',
         vec_owns cf v' (l ++ xs) cap' hv' /\ heap_is w' hv' hf /\ (w_allocs w' + k0 = w_allocs w + k)%nat /\ growth_inv k cap' /\ allocs_bound k (length l + length xs)) ->
       Q (v', es) w') ->
    runs (exec_ops cf (map OpPush xs) v) w Q.
  Proof.
    intros Hcf Hg. revert v l cap hv w k0 Q.
    induction xs as [|x xs IH]; intros v l cap hv w k0 Q Ho Hh Hinv Hb HQ; simpl.
    - apply runs_ret. apply HQ. intros _. exists k0, cap, hv. rewrite app_nil_r, Nat.add_0_r. done.
    - rbind. apply runs_put_err. rbind. unfold exec_op.
      eapply runs_push_back; [done..|by left|].
      intros v1 w1 (_ & Hna & _ & [(He & hv1 & Ho1 & Hh1)|(e & He & _ & cap1 & hv1 & Ho1 & Hh1)]);
        rbind; apply runs_get_err; rbind.
      + assert (exists k1, w_allocs w1 + k0 = w_allocs w + k1 /\ growth_inv k1 (if decide (cap = length l) then grow_cap cap (S cap) else cap) /\ allocs_bound k1 (length (l ++ [x]))) as (k1 & Hk1 & Hi1 & Hb1).
        { simpl in Hna. rewrite app_length. simpl. case_decide as Hfull.
          - exists (S k0). split; [lia|]. split.
            + apply growth_inv_step; [by eapply growth_fits|done].
            + right. unfold growth_inv in Hinv. replace (S k0 - 1) with k0 by lia. subst cap.
              by replace (length l + 1 + 1) with (length l + 2) by lia.
          - exists k0. split; [lia|]. split; [done|].
            destruct Hb as [Hb|Hb]; [by left|right]. etrans; [exact Hb|].
            apply Nat.mul_le_mono_l. lia. }
        eapply (IH v1 (l ++ [x])); [done..|]. intros v2 es w2 H2. apply runs_ret. apply HQ.
        intros HF. inversion_clear HF. destruct H2 as (k & cap' & hv' & Ho' & Hh' & Hk & Hi' & Hb'); [done|].
        rewrite <-app_assoc in Ho'. exists k, cap', hv'. repeat split; try done; try apply Hh'.
        * lia.
        * rewrite app_length in Hb'. simpl in Hb'.
          simpl. by replace (length l + S (length xs)) with (length l + 1 + length xs) by lia.
      + eapply runs_exec_ops; [done..| |done|done|].
        { apply Forall_forall. intros op Hop. apply elem_of_list_fmap in Hop as (y & -> & _). done. }
        intros v2 es l2 cap2 hv2 w2 _ _ _. apply runs_ret. apply HQ. intros HF.
        inversion_clear HF. congruence.
  Qed.
End hist.
