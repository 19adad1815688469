(** * Specifications of the vector operations, proved *)
From Verif Require Export VecProofs.

#[global] Arguments insert_value : simpl never.
#[global] Arguments grow : simpl never.
#[global] Arguments vec_push_back : simpl never.
#[global] Arguments vec_destroy : simpl never.
#[global] Arguments vec_size : simpl never.
#[global] Arguments vec_capacity : simpl never.

Section ops.
  Context {V : Type} (cf : cfg V).
  Notation W := (world (vblock V)).
  Implicit Types w : W.
  Implicit Types h : gmap addr (vblock V).

  Lemma cap_S_bytes cap : cfg_ok cf -> cap_ok cf cap -> (N.of_nat (S cap) * c_sizeof cf < 2^64)%N.
  Proof. intros [[??] ?] Hc. unfold cap_ok in Hc. nia. Qed.

  (** The argument of an insertion at index [i]: outside the vector, or an
      element in front of [i] while no reallocation is needed. *)
  Definition arg_good (v : vec_obj) (l : list V) (cap i : nat) hf (a : arg V) (x : V) : Prop :=
    arg_outside hf a x \/
    (length l < cap /\ exists k, k < i /\ l !! k = Some x /\ a = ARef (vec_pos v k)).

  Lemma runs_insert_value v l cap hv hf i a x w (Q : _ -> W -> Prop) :
    cfg_ok cf -> vec_owns cf v l cap hv -> heap_is w hv hf -> w_err w = None ->
    i <= length l -> arg_good v l cap i hf a x ->
    (forall r w', insert_post cf v l cap hf i x w r w' -> Q r w') ->
    runs (insert_value cf v (vec_pos v i) a) w Q.
  Proof.
    intros Hcf Ho Hh He Hi Ha HQ. unfold insert_value.
    pose proof (owns_cap_ok _ _ _ _ _ Hcf Ho) as Hco. pose proof (owns_le _ _ _ _ _ Ho) as Hle.
    assert (Hpos : pleb (m_start v) (vec_pos v i) = true /\ pleb (vec_pos v i) (m_finish v) = true /\
              pdiff (vec_pos v i) (m_start v) = @ret (vblock V) _ i).
    { unfold vec_pos. destruct Ho as [(Hs & Hf & Hen & -> & -> & ->)|(bs & Hs & Hf & Hen & _ & _ & ->)];
        rewrite Hs, Hf; simpl.
      - simpl in Hi. by replace i with 0 by lia.
      - rewrite !bool_decide_eq_true_2 by (split; [done|lia]). unfold pdiff.
        rewrite decide_True by (split; [done|lia]). by rewrite Nat.sub_0_r. }
    destruct Hpos as (Hp1 & Hp2 & Hp3).
    rbind. apply runs_assert; [done|]. rbind. apply runs_assert; [done|].
    rbind. rewrite Hp3. apply runs_ret.
    rbind. eapply owns_capacity; [done|]. rbind. eapply owns_size; [done|].
    rbind. case_decide as Hfull.
    - assert (Hout : arg_outside hf a x).
      { destruct Ha as [|(? & _)]; [done|lia]. }
      assert (Hsz : sz (cap + 1) = S cap).
      { rewrite sz_fits; [lia|]. eapply bytes_fits; [done|]. replace (cap + 1) with (S cap) by lia.
        by apply cap_S_bytes. }
      rewrite Hsz. rbind. eapply runs_grow; try done.
      + by apply cap_S_bytes.
      + left; lia.
      + intros v' b hv' w' Hs' Hal' Hfresh Ho' Hh' He' Hna.
        rbind. apply runs_has_err. rewrite He'. apply runs_ret.
        destruct Ho' as [(Hs & _)|(b' & Hs & Hf & Hen & Hle' & Hc' & ->)]; [congruence|].
        rewrite Hs' in Hs. injection Hs as <-.
        eapply runs_insert_room; try done.
        * pose proof (grow_cap_ge cap (S cap)). lia.
        * intros w'' live' Hp Hw''. eapply arg_outside_val; [done|by rewrite <-insert_union_singleton_l|].
          destruct Hh' as [? Hd']. rewrite map_disjoint_singleton_l in *. done.
        * intros r w'' Hal'' Hs'' Hen'' Hna'' Hpost. apply HQ. unfold insert_post.
          rewrite !decide_True by done. split; [congruence|]. split; [lia|]. split; [done|].
          destruct Hpost as [(? & Hr & Hown)|(e & ? & ? & Hee & Hown)].
          -- left. split; [done|]. split; [|done]. unfold vec_pos. by rewrite Hs'', Hs'.
          -- right. exists e. split; [done|]. split; [done|]. split; [done|].
             destruct Hown as [(? & ?)|(? & ? & ?)]; [left; eauto|right].
             split; [done|]. split; [done|]. split; [|done]. intros _.
             rewrite Hs'', Hs'. intros Heq. destruct Ho as [(Hs0 & _)|(b0 & Hs0 & _ & _ & _ & _ & ->)]; [congruence|].
             rewrite Hs0 in Heq. injection Heq as <-.
             destruct Hh as [Hw0 _]. rewrite Hw0, <-insert_union_singleton_l, lookup_insert in Hfresh. done.
      + intros w' e Hhe He' Hna. rbind. apply runs_has_err. rewrite He'. apply runs_ret. apply runs_ret.
        apply HQ. unfold insert_post. simpl. rewrite !decide_True by done.
        split; [done|]. split; [lia|]. split; [done|]. right. exists e. split; [done|]. split; [done|].
        split; [lia|]. left. exists cap, hv. split; [done|]. destruct Hh. split; [congruence|done].
    - apply runs_ret. simpl.
      destruct Ho as [(Hs & Hf & Hen & -> & -> & ->)|(b & Hs & Hf & Hen & Hle' & Hc & ->)]; [done|].
      assert (length l < cap) by lia.
      eapply runs_insert_room; try done.
      + intros w'' live' Hp Hw''. destruct Ha as [Ha|(_ & k & Hk & Hlk & ->)].
        * eapply arg_outside_val; [done|by rewrite <-insert_union_singleton_l|].
          destruct Hh as [? Hd']. rewrite map_disjoint_singleton_l in *. done.
        * unfold vec_pos. rewrite Hs. simpl. unfold read, load_block, load, bind, get_heap.
          rewrite Hw'', lookup_insert. simpl. rewrite decide_True by lia.
          rewrite Hp, decide_True by lia. by rewrite Hlk.
      + intros r w'' Hal'' Hs'' Hen'' Hna'' Hpost. apply HQ. unfold insert_post.
        rewrite !decide_False by done. split; [congruence|]. split; [lia|]. split; [done|].
        destruct Hpost as [(? & Hr & Hown)|(e & ? & ? & Hee & Hown)].
        * left. split; [done|]. split; [|done]. unfold vec_pos. by rewrite Hs'', Hs.
        * right. exists e. split; [done|]. split; [done|]. split; [done|].
          destruct Hown as [(? & ?)|(? & ? & ?)]; [left; eauto|right].
          split; [done|]. split; [done|]. split; [lia|done].
  Qed.

  Lemma owns_pos_end v l cap hv : vec_owns cf v l cap hv -> m_finish v = vec_pos v (length l).
  Proof.
    unfold vec_pos.
    intros [(Hs & Hf & Hen & -> & -> & ->)|(bs & Hs & Hf & Hen & _ & _ & ->)]; by rewrite Hs, Hf.
  Qed.

  (** push_back / emplace_back *)
  Definition push_post v (l : list V) cap hf x w v' w' : Prop :=
    m_allocator v' = m_allocator v /\
    w_allocs w' = w_allocs w + (if decide (cap = length l) then 1 else 0) /\
    (cap <> length l -> m_start v' = m_start v /\ m_end_of_storage v' = m_end_of_storage v) /\
    let cap' := if decide (cap = length l) then grow_cap cap (S cap) else cap in
    ((w_err w' = None /\
      exists hv', vec_owns cf v' (l ++ [x]) cap' hv' /\ heap_is w' hv' hf)
     \/
     (exists e, w_err w' = Some e /\
       (cap <> length l -> c_kind cf <> Nothrow /\ exists code, e = EElem code) /\
       exists cap'' hv', vec_owns cf v' l cap'' hv' /\ heap_is w' hv' hf)).

  Lemma insert_post_push v l cap hf x w r w' :
    insert_post cf v l cap hf (length l) x w r w' -> push_post v l cap hf x w r.2 w'.
  Proof.
    intros (? & ? & ? & Hp). split; [done|]. split; [done|]. split; [done|].
    destruct Hp as [(? & ? & Ho)|(e & ? & ? & ? & [Ho|(? & _)])].
    - left. rewrite take_ge, drop_ge in Ho by lia. done.
    - right. eauto.
    - lia.
  Qed.

  Lemma runs_push_back v l cap hv hf a x w (Q : _ -> W -> Prop) :
    cfg_ok cf -> vec_owns cf v l cap hv -> heap_is w hv hf -> w_err w = None ->
    arg_good v l cap (length l) hf a x ->
    (forall v' w', push_post v l cap hf x w v' w' -> Q v' w') ->
    runs (vec_push_back cf v a) w Q.
  Proof.
    intros Hcf Ho Hh He Ha HQ. unfold vec_push_back, vec_insert.
    rewrite (owns_pos_end _ _ _ _ Ho).
    rbind. eapply runs_insert_value; try done. intros r w' Hp. apply runs_ret.
    apply HQ. by apply insert_post_push.
  Qed.
  Lemma runs_emplace_back v l cap hv hf a x w (Q : _ -> W -> Prop) :
    cfg_ok cf -> vec_owns cf v l cap hv -> heap_is w hv hf -> w_err w = None ->
    arg_good v l cap (length l) hf a x ->
    (forall v' w', push_post v l cap hf x w v' w' -> Q v' w') ->
    runs (vec_emplace_back cf v a) w Q.
  Proof. apply runs_push_back. Qed.

  (** ** insert of a range *)

  Definition args_outside hf (args : list (arg V)) (xs : list V) : Prop :=
    Forall2 (arg_outside hf) args xs.

  Lemma runs_insert_range_loop args xs v l cap hv hf i res w (Q : _ -> W -> Prop) :
    cfg_ok cf -> vec_owns cf v l cap hv -> heap_is w hv hf -> w_err w = None ->
    i <= length l -> args_outside hf args xs ->
    (forall r w',
      m_allocator r.2 = m_allocator v ->
      ((w_err w' = None /\ exists cap' hv', vec_owns cf r.2 (take i l ++ xs ++ drop i l) cap' hv' /\ heap_is w' hv' hf)
       \/ (exists e, w_err w' = Some e /\ exists k, k < length xs /\
            let l' := take i l ++ take k xs ++ drop i l in
            ((exists cap' hv', vec_owns cf r.2 l' cap' hv' /\ heap_is w' hv' hf)
             \/ (i < length l /\ c_kind cf <> Nothrow /\ exists code, e = EElem code /\ vec_broken r.2 l' (i + k) hf w')))) -> Q r w') ->
    runs (insert_range_loop cf v i res args) w Q.
  Proof.
    revert xs v l cap hv i res w Q. induction args as [|a args IH];
      intros xs v l cap hv i res w Q Hcf Ho Hh He Hi Ha HQ.
    - apply Forall2_nil_inv_l in Ha as ->. apply runs_ret. apply HQ; simpl; [done|]. left. split; [done|].
      rewrite take_drop. eauto.
    - apply Forall2_cons_inv_l in Ha as (x & xs' & Hax & Hargs & ->). simpl.
      rbind. 
      assert (Hpadd : runs (padd (m_start v) i) w (fun p w' => p = vec_pos v i /\ w' = w)).
      { unfold vec_pos. destruct Hh as [Hw Hd].
        destruct Ho as [(Hs & Hf & Hen & -> & -> & ->)|(bs & Hs & Hf & Hen & Hle & _ & ->)]; rewrite Hs.
        - simpl in Hi. replace i with 0 by lia. by apply runs_ret.
        - rewrite map_disjoint_singleton_l in Hd. rewrite <-insert_union_singleton_l in Hw.
          eapply runs_padd; [by rewrite Hw, lookup_insert|simpl; lia|done]. }
      eapply runs_mono; [apply Hpadd|]. intros p w0 [-> ->].
      rbind. eapply runs_insert_value; try done; [by left|].
      intros r w' (Hal & Hna & Hst & Hpost). cbv zeta in Hpost. rbind. apply runs_has_err.
      destruct Hpost as [(He' & Hr & hv' & Ho' & Hh')|(e & He' & Hr & _ & Hpost)]; rewrite He'.
      + eapply (IH xs'); try done.
        * rewrite app_length; simpl. rewrite take_length. lia.
        * assert (Htk : forall m, take (S i) (take i l ++ x :: drop i l) ++ m = take i l ++ x :: m).
          { intros m. rewrite take_app_ge by (rewrite take_length; lia).
            replace (S i - length (take i l)) with 1 by (rewrite take_length; lia). simpl.
            by rewrite take_0, <-(assoc_L (++)). }
          assert (Hdr : drop (S i) (take i l ++ x :: drop i l) = drop i l).
          { rewrite drop_app_ge by (rewrite take_length; lia).
            replace (S i - length (take i l)) with 1 by (rewrite take_length; lia). done. }
          intros r' w'' Hal' Hp. apply HQ; [congruence|].
          cbv zeta in Hp. rewrite Hdr in Hp. setoid_rewrite Htk in Hp. simpl in Hp.
          destruct Hp as [Hp|(e & Hee & k & Hk & Hp)]; [by left|].
          right. exists e. split; [done|]. exists (S k). simpl. split; [lia|].
          destruct Hp as [Hp|(Hlt & Hk' & code & -> & Hb)]; [by left|].
          right. rewrite app_length in Hlt; simpl in Hlt. rewrite take_length, drop_length in Hlt.
          split; [lia|]. split; [done|]. exists code. split; [done|]. by replace (i + S k) with (S i + k) by lia.
      + apply runs_ret. apply HQ; simpl; [done|]. right. exists e. split; [done|]. exists 0. simpl. split; [lia|].
        rewrite take_drop. destruct Hpost as [Hp|(? & ? & _ & code & -> & Hb)]; [by left|].
        right. split; [done|]. split; [done|]. exists code. split; [done|]. by rewrite Nat.add_0_r.
  Qed.

  Lemma runs_insert_range args xs v l cap hv hf i w (Q : _ -> W -> Prop) :
    cfg_ok cf -> vec_owns cf v l cap hv -> heap_is w hv hf -> w_err w = None ->
    i <= length l -> args_outside hf args xs ->
    (forall v' w',
      m_allocator v' = m_allocator v ->
      ((w_err w' = None /\ exists cap' hv', vec_owns cf v' (take i l ++ xs ++ drop i l) cap' hv' /\ heap_is w' hv' hf)
       \/ (exists e, w_err w' = Some e /\ exists k, k < length xs /\
            let l' := take i l ++ take k xs ++ drop i l in
            ((exists cap' hv', vec_owns cf v' l' cap' hv' /\ heap_is w' hv' hf)
             \/ (i < length l /\ c_kind cf <> Nothrow /\ exists code, e = EElem code /\ vec_broken v' l' (i + k) hf w')))) -> Q v' w') ->
    runs (vec_insert_range cf v (vec_pos v i) args) w Q.
  Proof.
    intros Hcf Ho Hh He Hi Ha HQ. unfold vec_insert_range.
    assert (Hpos : pleb (m_start v) (vec_pos v i) = true /\ pleb (vec_pos v i) (m_finish v) = true /\
              pdiff (vec_pos v i) (m_start v) = @ret (vblock V) _ i).
    { unfold vec_pos. destruct Ho as [(Hs & Hf & Hen & -> & -> & ->)|(bs & Hs & Hf & Hen & _ & _ & ->)];
        rewrite Hs, Hf; simpl.
      - simpl in Hi. by replace i with 0 by lia.
      - rewrite !bool_decide_eq_true_2 by (split; [done|lia]). unfold pdiff.
        rewrite decide_True by (split; [done|lia]). by rewrite Nat.sub_0_r. }
    destruct Hpos as (Hp1 & Hp2 & Hp3).
    rbind. apply runs_assert; [done|]. rbind. apply runs_assert; [done|].
    rbind. rewrite Hp3. apply runs_ret.
    rbind. eapply runs_insert_range_loop; try done. intros r w' Hal Hp. apply runs_ret. by apply HQ.
  Qed.

  (** ** resize *)

  Lemma map_seq_snoc_0 (l : list V) x : <[length l := x]> (map_seq 0 l : gmap nat V) = map_seq 0 (l ++ [x]).
  Proof. by rewrite map_seq_snoc. Qed.

  Lemma runs_resize_loop fuel v b l cap hf count a x w (Q : _ -> W -> Prop) :
    m_start v = Ptr b 0 -> m_finish v = Ptr b (length l) -> m_end_of_storage v = Ptr b cap ->
    length l <= count -> count <= cap -> cap_ok cf cap ->
    heap_is w {[b := Block (m_allocator v) cap cap (map_seq 0 l)]} hf -> w_err w = None ->
    arg_outside hf a x -> count - length l < fuel ->
    (forall v' hv' w' k, m_allocator v' = m_allocator v -> m_start v' = m_start v ->
       k <= count - length l -> vec_owns cf v' (l ++ replicate k x) cap hv' -> heap_is w' hv' hf ->
       w_allocs w' = w_allocs w ->
       ((w_err w' = None /\ k = count - length l) \/ (exists code, w_err w' = Some (EElem code) /\ k < count - length l)) ->
       Q v' w') ->
    runs (resize_loop cf fuel v count a) w Q.
  Proof.
    revert v l w Q. induction fuel as [|fuel IH];
      intros v l w Q Hs Hf Hen Hlc Hcc Hco [Hw Hd] He Ha Hfuel HQ; [lia|]. simpl.
    pose proof Hd as Hd0. rewrite map_disjoint_singleton_l in Hd.
    pose proof Hw as Hw0. rewrite <-insert_union_singleton_l in Hw.
    rewrite Hs. rbind. eapply runs_padd; [by rewrite Hw, lookup_insert|simpl; lia|].
    rewrite Nat.add_0_l, Hf. simpl. case_bool_decide as Hlt.
    - destruct Hlt as [_ Hlt].
      rbind. eapply runs_construct_at with (v := x); try done.
      + eapply arg_outside_val; try done.
      + by rewrite Hw, lookup_insert.
      + simpl. lia.
      + simpl. rewrite lookup_map_seq_0. apply lookup_ge_None. lia.
      + intros orc. simpl. rewrite Hw, insert_insert, map_seq_snoc_0. rbind. apply runs_has_err; simpl.
        rbind. eapply runs_padd; [simpl; by rewrite lookup_insert|simpl; lia|].
        assert (Hlen : length (l ++ [x]) = length l + 1) by (by rewrite app_length).
        eapply (IH _ (l ++ [x])); simpl; try done.
        * by rewrite Hlen.
        * lia.
        * split; simpl; [by rewrite insert_union_singleton_l|by rewrite map_disjoint_singleton_l].
        * lia.
        * intros v' hv' w' k Hal Hst Hk Ho' Hh' Hna Hcase.
          eapply (HQ v' hv' w' (S k)); try done; [congruence|lia| |].
          -- by rewrite <-(assoc_L (++)) in Ho'.
          -- rewrite Hlen in Hcase. destruct Hcase as [[? ?]|(code & ? & ?)]; [left|right; exists code]; split; try done; lia.
      + intros orc code _. simpl. rbind. apply runs_has_err; simpl. apply runs_ret.
        eapply (HQ _ _ _ 0); simpl; try done.
        * lia.
        * rewrite app_nil_r. right. exists b. repeat split; try done. lia.
        * right. exists code. split; [done|lia].
    - assert (length l = count) as Heq by (destruct (decide (length l < count)); [tauto|lia]).
      apply runs_ret. eapply (HQ _ _ _ 0); try done.
      + lia.
      + simpl. rewrite app_nil_r. right. exists b. repeat split; try done. lia.
      + left. split; [done|lia].
  Qed.

  Lemma runs_resize v l cap hv hf count a x w (Q : _ -> W -> Prop) :
    cfg_ok cf -> vec_owns cf v l cap hv -> heap_is w hv hf -> w_err w = None ->
    (N.of_nat count * c_sizeof cf < 2^64)%N ->
    cap < count \/ fits (3 * (cap + 1)) -> arg_outside hf a x ->
    (forall v' hv' w', count <= length l -> m_allocator v' = m_allocator v -> m_start v' = m_start v ->
       vec_owns cf v' (take count l) cap hv' -> heap_is w' hv' hf -> w_err w' = None ->
       w_allocs w' = w_allocs w -> w_orc w' = w_orc w -> Q v' w') ->
    (forall v' cap' hv' w' k, length l < count -> m_allocator v' = m_allocator v ->
       k <= count - length l -> vec_owns cf v' (l ++ replicate k x) cap' hv' -> heap_is w' hv' hf ->
       w_allocs w' = S (w_allocs w) ->
       ((w_err w' = None /\ k = count - length l /\ cap' = grow_cap cap count) \/
        (exists e, w_err w' = Some e /\ k < count - length l)) -> Q v' w') ->
    runs (vec_resize cf v count a) w Q.
  Proof.
    intros Hcf Ho Hh He Hb Hgt Ha Hshrink Hgrow. unfold vec_resize.
    rbind. eapply owns_size; [done|]. case_decide as Hle.
    - destruct Hh as [Hw Hd].
      destruct Ho as [(Hs & Hf & Hen & -> & -> & ->)|(bs & Hs & Hf & Hen & Hlec & Hc & ->)]; rewrite Hs, Hf.
      + simpl in Hle. replace count with 0 in * by lia. rbind. apply runs_ret. rbind. apply runs_destroy_null.
        apply runs_ret. eapply Hshrink; simpl; try done. by left.
      + rewrite map_disjoint_singleton_l in Hd. rewrite <-insert_union_singleton_l in Hw.
        rbind. eapply runs_padd; [by rewrite Hw, lookup_insert|simpl; lia|]. rewrite Nat.add_0_l.
        rbind. eapply runs_destroy; [by rewrite Hw, lookup_insert|lia|lia| |].
        * intros k Hk. apply map_seq_is_Some. lia.
        * intros live' Hl'. apply runs_ret.
          assert (live' = map_seq 0 (take count l)) as ->.
          { apply map_seq_live. intros k. rewrite Hl', lookup_map_seq_0. case_decide as Hk.
            - symmetry. apply lookup_ge_None. rewrite take_length. lia.
            - destruct (decide (k < count)).
              + by rewrite lookup_take.
              + rewrite lookup_take_ge by lia. apply lookup_ge_None. lia. }
          eapply Hshrink; simpl; try done.
          -- right. exists bs. simpl. rewrite take_length. replace (count `min` length l) with count by lia.
             repeat split; try done. lia.
          -- rewrite Hw, insert_insert.
             split; simpl; [by rewrite insert_union_singleton_l|by rewrite map_disjoint_singleton_l].
    - rbind. eapply runs_grow; try done.
      + intros v' b hv' w' Hs' Hal' Hfresh Ho' Hh' He' Hna.
        rbind. apply runs_has_err. rewrite He'.
        destruct Ho' as [(Hs & _)|(b' & Hs & Hf & Hen & Hle' & Hc' & ->)]; [congruence|].
        rewrite Hs' in Hs. injection Hs as <-.
        eapply runs_resize_loop; try done; [lia|apply grow_cap_ge|lia|].
        intros v'' hv'' w'' k Hal'' Hst Hk Ho'' Hh'' Hna'' Hcase.
        eapply Hgrow; try done; [lia|congruence|lia|].
        destruct Hcase as [[? ?]|(code & ? & ?)]; [left|right]; eauto.
      + intros w' e Hhe He' Hna. rbind. apply runs_has_err. rewrite He'. apply runs_ret.
        eapply (Hgrow _ cap hv _ 0); try done; [lia|lia| | |].
        * by rewrite app_nil_r.
        * destruct Hh. split; [congruence|done].
        * right. exists e. split; [done|lia].
  Qed.

  (** ** assign *)

  Lemma vec_swap_new al v :
    vec_swap (vec_new al) v = (v, vec_new al).
  Proof. by destruct v. Qed.

  Lemma owns_new al : vec_owns cf (vec_new al) [] 0 ∅.
  Proof. by left. Qed.

  Lemma heap_is_empty w h : w_heap w = h -> heap_is w ∅ h.
  Proof. intros <-. split; [by rewrite (left_id_L ∅ (∪))|apply map_disjoint_empty_l]. Qed.

  (** Two disjoint fragments can be exchanged. *)
  Lemma heap_is_swap w h1 h2 hf :
    h2 ##ₘ hf -> heap_is w h1 (h2 ∪ hf) -> heap_is w h2 (h1 ∪ hf) /\ h1 ##ₘ hf /\ h1 ##ₘ h2.
  Proof.
    intros Hd [Hw Hd']. apply map_disjoint_union_r in Hd' as [Hd1 Hd2].
    split; [|done]. split.
    - rewrite Hw, !(assoc_L (∪)). f_equal. by apply map_union_comm.
    - apply map_disjoint_union_r. split; [by symmetry|done].
  Qed.

  (** destroying [tmp] (fragment [h2]) at the end of the function *)
  Lemma runs_destroy_tmp tmp l cap h1 h2 hf w (Q : _ -> W -> Prop) :
    vec_owns cf tmp l cap h2 -> h2 ##ₘ hf -> heap_is w h1 (h2 ∪ hf) ->
    (forall w', heap_is w' h1 hf -> w_err w' = w_err w -> w_allocs w' = w_allocs w ->
       w_ctors w' = w_ctors w -> w_orc w' = w_orc w -> Q tt w') ->
    runs (vec_destroy tmp) w Q.
  Proof.
    intros Ho Hd Hh HQ. apply heap_is_swap in Hh as (Hh & Hd1 & _); [|done].
    eapply runs_vec_destroy; [done..|]. apply HQ; try done.
  Qed.

  Lemma arg_good_outside v l cap i hf a x : arg_outside hf a x -> arg_good v l cap i hf a x.
  Proof. by left. Qed.

  Lemma runs_assign_n_loop n v l cap hv hf a x w (Q : _ -> W -> Prop) :
    cfg_ok cf -> vec_owns cf v l cap hv -> heap_is w hv hf -> w_err w = None ->
    arg_outside hf a x ->
    (forall v' cap' hv' w' k, m_allocator v' = m_allocator v -> k <= n ->
       vec_owns cf v' (l ++ replicate k x) cap' hv' -> heap_is w' hv' hf ->
       ((w_err w' = None /\ k = n) \/ (exists e, w_err w' = Some e /\ k < n)) -> Q v' w') ->
    runs (assign_n_loop cf v n a) w Q.
  Proof.
    revert v l cap hv w Q. induction n as [|n IH]; intros v l cap hv w Q Hcf Ho Hh He Ha HQ; simpl.
    - apply runs_ret. eapply (HQ _ _ _ _ 0); try done; [by rewrite app_nil_r|by left].
    - rbind. eapply runs_push_back; try done; [by apply arg_good_outside|].
      intros v' w' (Hal & Hna & Hst & Hp). cbv zeta in Hp. rbind. apply runs_has_err.
      destruct Hp as [(He' & hv' & Ho' & Hh')|(e & He' & _ & cap' & hv' & Ho' & Hh')]; rewrite He'.
      + eapply IH; try done. intros v'' cap'' hv'' w'' k Hal'' Hk Ho'' Hh'' Hcase.
        eapply (HQ _ _ _ _ (S k)); try done; [congruence|lia| |].
        * by rewrite <-(assoc_L (++)) in Ho''.
        * destruct Hcase as [[? ?]|(e & ? & ?)]; [left|right; exists e]; split; try done; lia.
      + apply runs_ret. eapply (HQ _ _ _ _ 0); try done; [lia|by rewrite app_nil_r|].
        right. exists e. split; [done|lia].
  Qed.

  Lemma runs_assign_n n v l cap hv hf a x w (Q : _ -> W -> Prop) :
    cfg_ok cf -> vec_owns cf v l cap hv -> heap_is w hv hf -> w_err w = None ->
    (N.of_nat n * c_sizeof cf < 2^64)%N -> arg_outside (hv ∪ hf) a x ->
    (forall v' cap' hv' w' k, m_allocator v' = c_dflt cf -> k <= n ->
       vec_owns cf v' (replicate k x) cap' hv' -> heap_is w' hv' hf ->
       ((w_err w' = None /\ k = n) \/ (exists e, w_err w' = Some e /\ (k < n \/ n = 0))) -> Q v' w') ->
    runs (vec_assign_n cf v n a) w Q.
  Proof.
    intros Hcf Ho [Hw Hd] He Hb Ha HQ. unfold vec_assign_n. rewrite vec_swap_new.
    rbind. apply runs_assert; [done|].
    rbind. eapply runs_grow with (hf := hv ∪ hf); try done.
    - by apply owns_new.
    - by apply heap_is_empty.
    - right. unfold fits. lia.
    - intros v' b hv' w' Hs' Hal' Hfresh Ho' Hh' He' Hna.
      rbind. apply runs_has_err. rewrite He'.
      rbind. eapply runs_assign_n_loop; try done.
      intros v'' cap'' hv'' w'' k Hal'' Hk Ho'' Hh'' Hcase.
      rbind. eapply runs_destroy_tmp; try done. intros w3 Hh3 He3 _ _ _. apply runs_ret.
      eapply HQ; try done; [by rewrite Hal'', Hal'|]. rewrite He3.
      destruct Hcase as [?|(e & ? & ?)]; [by left|right; eauto].
    - intros w' e Hhe He' Hna. rbind. apply runs_has_err. rewrite He'. rbind. apply runs_ret.
      rbind. eapply runs_destroy_tmp; try done.
      { apply heap_is_empty. by rewrite Hhe. }
      intros w3 Hh3 He3 _ _ _. apply runs_ret. eapply (HQ _ _ _ _ 0); try done.
      + lia.
      + by apply owns_new.
      + rewrite He3. right. exists e. split; [done|lia].
  Qed.

  Lemma runs_assign_input_loop args xs v l cap hv hf w (Q : _ -> W -> Prop) :
    cfg_ok cf -> vec_owns cf v l cap hv -> heap_is w hv hf -> w_err w = None ->
    args_outside hf args xs ->
    (forall v' cap' hv' w' k, m_allocator v' = m_allocator v -> k <= length xs ->
       vec_owns cf v' (l ++ take k xs) cap' hv' -> heap_is w' hv' hf ->
       ((w_err w' = None /\ k = length xs) \/ (exists e, w_err w' = Some e /\ k < length xs)) -> Q v' w') ->
    runs (assign_input_loop cf v args) w Q.
  Proof.
    revert xs v l cap hv w Q. induction args as [|a args IH];
      intros xs v l cap hv w Q Hcf Ho Hh He Ha HQ; simpl.
    - apply Forall2_nil_inv_l in Ha as ->. apply runs_ret.
      eapply (HQ _ _ _ _ 0); try done; [by rewrite app_nil_r|by left].
    - apply Forall2_cons_inv_l in Ha as (x & xs' & Hax & Hargs & ->).
      rbind. eapply runs_push_back; try done; [by apply arg_good_outside|].
      intros v' w' (Hal & Hna & Hst & Hp). cbv zeta in Hp. rbind. apply runs_has_err.
      destruct Hp as [(He' & hv' & Ho' & Hh')|(e & He' & _ & cap' & hv' & Ho' & Hh')]; rewrite He'.
      + eapply IH; try done. intros v'' cap'' hv'' w'' k Hal'' Hk Ho'' Hh'' Hcase.
        eapply (HQ _ _ _ _ (S k)); try done; simpl; [congruence|lia| |].
        * by rewrite <-(assoc_L (++)) in Ho''.
        * destruct Hcase as [[? ?]|(e & ? & ?)]; [left|right; exists e]; split; try done; lia.
      + apply runs_ret. eapply (HQ _ _ _ _ 0); try done; simpl; [lia|by rewrite app_nil_r|].
        right. exists e. split; [done|lia].
  Qed.

  Lemma runs_assign_input args xs v l cap hv hf w (Q : _ -> W -> Prop) :
    cfg_ok cf -> vec_owns cf v l cap hv -> heap_is w hv hf -> w_err w = None ->
    args_outside (hv ∪ hf) args xs ->
    (forall v' cap' hv' w' k, m_allocator v' = c_dflt cf -> k <= length xs ->
       vec_owns cf v' (take k xs) cap' hv' -> heap_is w' hv' hf ->
       ((w_err w' = None /\ k = length xs) \/ (exists e, w_err w' = Some e /\ k < length xs)) -> Q v' w') ->
    runs (vec_assign_input cf v args) w Q.
  Proof.
    intros Hcf Ho [Hw Hd] He Ha HQ. unfold vec_assign_input. rewrite vec_swap_new.
    rbind. apply runs_assert; [done|].
    rbind. eapply runs_assign_input_loop with (hf := hv ∪ hf); try done.
    { by apply owns_new. } { by apply heap_is_empty. }
    intros v'' cap'' hv'' w'' k Hal'' Hk Ho'' Hh'' Hcase.
    rbind. eapply runs_destroy_tmp; try done. intros w3 Hh3 He3 _ _ _. apply runs_ret.
    eapply HQ; try done. by rewrite He3.
  Qed.

  Lemma runs_assign_ptr_loop fuel bs src xs i v l cap hv hf w (Q : _ -> W -> Prop) :
    cfg_ok cf -> vec_owns cf v l cap hv -> heap_is w hv hf -> w_err w = None ->
    hf !! bs = Some src -> length xs <= b_room src ->
    (forall k x, xs !! k = Some x -> b_live src !! k = Some x) ->
    i <= length xs -> length xs - i < fuel ->
    (forall v' cap' hv' w' k, m_allocator v' = m_allocator v -> k <= length xs - i ->
       vec_owns cf v' (l ++ take k (drop i xs)) cap' hv' -> heap_is w' hv' hf ->
       ((w_err w' = None /\ k = length xs - i) \/ (exists e, w_err w' = Some e /\ k < length xs - i)) -> Q v' w') ->
    runs (assign_ptr_loop cf fuel v (Ptr bs i) (Ptr bs (length xs))) w Q.
  Proof.
    intros Hcf. revert i v l cap hv w Q. induction fuel as [|fuel IH];
      intros i v l cap hv w Q Ho Hh He Hbs Hroom Hsrc Hi Hfuel HQ; [lia|]; simpl.
    case_decide as Heq.
    - simplify_eq. apply runs_ret. eapply (HQ _ _ _ _ 0); try done; [lia|by rewrite app_nil_r|].
      left. split; [done|lia].
    - assert (i < length xs) by (assert (i <> length xs) by congruence; lia).
      destruct (lookup_lt_is_Some_2 xs i) as [x Hx]; [done|].
      rbind. eapply runs_push_back with (x := x); try done.
      { apply arg_good_outside. simpl. exists src. repeat split; [done|lia|by apply Hsrc]. }
      intros v' w' (Hal & Hna & Hst & Hp). cbv zeta in Hp. rbind. apply runs_has_err.
      destruct Hp as [(He' & hv' & Ho' & Hh')|(e & He' & _ & cap' & hv' & Ho' & Hh')]; rewrite He'.
      + rbind. eapply runs_padd.
        { destruct Hh' as [-> Hd']. by apply lookup_union_Some_r. }
        { lia. }
        replace (i + 1) with (S i) by lia.
        eapply IH; try done; [lia|]. intros v'' cap'' hv'' w'' k Hal'' Hk Ho'' Hh'' Hcase.
        eapply (HQ _ _ _ _ (S k)); try done; simpl; [congruence|lia| |].
        * rewrite <-(assoc_L (++)) in Ho''. erewrite (drop_S xs) by done. done.
        * destruct Hcase as [[? ?]|(e & ? & ?)]; [left|right; exists e]; split; try done; lia.
      + apply runs_ret. eapply (HQ _ _ _ _ 0); try done; simpl; [lia|by rewrite app_nil_r|].
        right. exists e. split; [done|lia].
  Qed.

  (** copy_nothrow from a vector [o] that is either another one or [v] itself:
      what matters is that its storage is in [hv ∪ hf]. *)
  (** A range [i, j) of elements of a vector, possibly the destination itself. *)
  Lemma runs_assign_ptrs v l cap hv o lo capo ho hf i j w (Q : _ -> W -> Prop) :
    cfg_ok cf -> vec_owns cf v l cap hv -> heap_is w hv hf -> w_err w = None ->
    vec_owns cf o lo capo ho -> ho ⊆ hv ∪ hf -> i <= j -> j <= length lo ->
    (forall v' cap' hv' w' k, m_allocator v' = c_dflt cf -> k <= j - i ->
       vec_owns cf v' (take k (drop i lo)) cap' hv' -> heap_is w' hv' hf ->
       ((w_err w' = None /\ k = j - i) \/ (exists e, w_err w' = Some e /\ (k < j - i \/ i = j))) -> Q v' w') ->
    runs (vec_assign_ptrs cf v (vec_pos o i) (vec_pos o j)) w Q.
  Proof.
    intros Hcf Ho [Hw Hd] He Hoo Hsub Hij Hj HQ. unfold vec_assign_ptrs. rewrite vec_swap_new.
    rbind. apply runs_assert; [done|].
    assert (Hfail : forall w' e, w_heap w' = w_heap w -> w_err w' = Some e ->
              runs (do! vec_destroy v in ret (vec_new (c_dflt cf))) w' Q).
    { intros w' e Hhe He'. rbind. eapply runs_destroy_tmp; try done.
      { apply heap_is_empty. by rewrite Hhe. }
      intros w3 Hh3 He3 _ _ _. apply runs_ret. eapply (HQ _ _ _ _ 0); try done.
      + lia.
      + by apply owns_new.
      + rewrite He3. right. exists e. split; [done|]. lia. }
    rbind.
    assert (Hdiff : runs (pdiff (vec_pos o j) (vec_pos o i)) w (fun n w' => n = j - i /\ w' = w)).
    { unfold vec_pos. destruct Hoo as [(Hs & _ & _ & -> & _)|(bs & Hs & _)]; rewrite Hs.
      - simpl in Hj. apply runs_pdiff_null. split; [lia|done].
      - by apply runs_pdiff. }
    eapply runs_mono; [apply Hdiff|]. intros n w0 [-> ->].
    pose proof (owns_le _ _ _ _ _ Hoo) as Hle. pose proof (owns_cap_ok _ _ _ _ _ Hcf Hoo) as Hco.
    rbind. eapply runs_grow with (hf := hv ∪ hf); try done.
    - by apply owns_new.
    - by apply heap_is_empty.
    - unfold cap_ok in Hco. destruct Hcf as [[??]?]. nia.
    - right. unfold fits. lia.
    - intros v' b hv' w' Hs' Hal' Hfresh Ho' Hh' He' Hna.
      rbind. apply runs_has_err. rewrite He'.
      unfold vec_pos.
      destruct Hoo as [(Hs & Hf & Hen & -> & -> & ->)|(bs & Hs & Hf & Hen & _ & Hc & ->)]; rewrite Hs.
      + simpl. rbind. rbind. apply runs_assert.
        { destruct Ho' as [(?&?&_)|(? & E1 & E2 & _)]; unfold vec_empty; apply bool_decide_eq_true; simpl in *; congruence. }
        apply runs_ret. rbind. eapply runs_destroy_tmp; try done. intros w3 Hh3 He3 _ _ _. apply runs_ret.
        simpl in Hj.
        eapply (HQ _ _ _ _ 0); try done; [lia|]. rewrite He3. left. split; [done|lia].
      + rbind. rbind. apply runs_assert.
        { destruct Ho' as [(?&?&_)|(? & E1 & E2 & _)]; unfold vec_empty; apply bool_decide_eq_true; simpl in *; congruence. }
        assert (Hlt : length (take j lo) = j) by (rewrite take_length; lia).
        rewrite <-Hlt at 2. rewrite <-Hlt at 1.
        eapply (runs_assign_ptr_loop _ _ _ (take j lo)); try done.
        { eapply map_subseteq_spec; [done|]. by rewrite lookup_singleton. }
        { simpl. lia. }
        { intros k x Hk. simpl. rewrite lookup_map_seq_0. apply lookup_take_Some in Hk as [? _]. done. }
        { lia. } { simpl. lia. }
        intros v'' cap'' hv'' w'' k Hal'' Hk Ho'' Hh'' Hcase. rewrite Hlt in *. simpl in Ho''.
        rewrite skipn_firstn_comm, take_take, Nat.min_l in Ho'' by lia.
        rbind. eapply runs_destroy_tmp; try done. intros w3 Hh3 He3 _ _ _. apply runs_ret.
        eapply (HQ _ _ _ _ k); try done; [by rewrite Hal'', Hal'|].
        rewrite He3. destruct Hcase as [[? ?]|(e & ? & ?)]; [left; split; [done|lia]|right; eauto].
    - intros w' e Hhe He' Hna. rbind. apply runs_has_err. rewrite He'. rbind. apply runs_ret. by eapply Hfail.
  Qed.

  Lemma runs_vec_copy v l cap hv o lo capo ho hf w (Q : _ -> W -> Prop) :
    cfg_ok cf -> vec_owns cf v l cap hv -> heap_is w hv hf -> w_err w = None ->
    vec_owns cf o lo capo ho -> ho ⊆ hv ∪ hf ->
    (forall v' cap' hv' w' k, m_allocator v' = c_dflt cf -> k <= length lo ->
       vec_owns cf v' (take k lo) cap' hv' -> heap_is w' hv' hf ->
       ((w_err w' = None /\ k = length lo) \/ (exists e, w_err w' = Some e /\ (k < length lo \/ lo = []))) -> Q v' w') ->
    runs (vec_copy cf v o) w Q.
  Proof.
    intros Hcf Ho Hh He Hoo Hsub HQ. unfold vec_copy.
    assert (m_start o = vec_pos o 0) as ->.
    { unfold vec_pos. by destruct Hoo as [(-> & _)|(b & -> & _)]. }
    rewrite (owns_pos_end _ _ _ _ Hoo).
    eapply runs_assign_ptrs; try done; [lia|].
    intros v' cap' hv' w' k Hal Hk Ho' Hh' Hr. rewrite Nat.sub_0_r in *. rewrite drop_0 in Ho'.
    eapply HQ; try done. destruct Hr as [?|(e & ? & Hk')]; [by left|]. right. exists e. split; [done|].
    destruct Hk' as [|H0]; [by left|right]. by destruct lo.
  Qed.
End ops.
