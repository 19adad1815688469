(** * Histories on trees that keep equal values, as a function of the failures of the environment *)
From Verif Require Export RbDetHist RbMultiHist HonestMulti.
From Verif Require Import SameSpec.

Section det.
  Context {V : Type} {LL : limit} (cf : cfg V) (comp : V -> V -> bool).
  Notation H := (gmap addr (tcell V)).
  Notation W := (world (tcell V)).
  Notation MT := (M (tcell V)).
  Notation E := (addr * V)%type.
  Implicit Types hv hf hr : H.
  Implicit Types w : W.
  Implicit Types xs ys : list E.
  Implicit Types xss : list (list E).
  Implicit Types ls : list (list V).
  Notation al := (c_dflt cf).
  Notation wk := (wk comp).
  Notation sin := (sin wk).
  Notation set h := (TSet al h).
  Notation objs hds := (TSet al <$> hds).
  Notation srow := (srow cf wk).
  Notation puts_last us m := (fold_left (fun l v => put_last comp v l) us m).

  (** ** Every insertion makes one node *)

  Lemma tmakes_silent_bind {A B} (m : MT A) (k : A -> MT B) : silent m -> (forall a, tmakes cf (k a)) -> tmakes cf (bind m k).
  Proof.
    intros Hm Hk w b w' He (a & w1 & H1 & H2)%bind_done. destruct (Hm _ _ _ H1) as (Ho & He1 & _).
    rewrite <-Ho. eapply Hk; [|exact H2]. congruence.
  Qed.
  Lemma tmakes_fail {A} f : tmakes cf (fail f : MT A).
  Proof. by intros w a w' _ Hf. Qed.
  Lemma tmakes_m_insert o x p v : tmakes cf (m_insert cf comp o x p v).
  Proof.
    unfold m_insert. apply tmakes_silent_bind; [sh|]. intros b. apply tmakes_bind_silent; [apply tmakes_create_node|]. sh.
  Qed.
  Lemma tmakes_insert_equal o x : tmakes cf (insert_equal cf comp o x).
  Proof. unfold insert_equal. apply tmakes_silent_bind; [sh|]. intros [y [p|]]; [apply tmakes_m_insert|apply tmakes_fail]. Qed.
  Lemma tmakes_insert_equal_lower o x : tmakes cf (insert_equal_lower cf comp o x).
  Proof.
    unfold insert_equal_lower, m_insert_lower. do 4 (apply tmakes_silent_bind; [sh|]; intros ?).
    apply tmakes_bind_silent; [apply tmakes_create_node|]. sh.
  Qed.
  Lemma tmakes_insert_equal_at o p x : tmakes cf (insert_equal_at cf comp o p x).
  Proof.
    unfold insert_equal_at. apply tmakes_silent_bind; [sh|]. intros [y [q|]]; [apply tmakes_m_insert|apply tmakes_insert_equal_lower].
  Qed.
  Lemma tmakes_emplace_equal o x : tmakes cf (emplace_equal cf comp o x).
  Proof. unfold emplace_equal. apply tmakes_bind_silent; [apply tmakes_create_node|]. sh. Qed.
  Lemma tmakes_emplace_hint_equal o p x : tmakes cf (emplace_hint_equal cf comp o p x).
  Proof. unfold emplace_hint_equal. apply tmakes_bind_silent; [apply tmakes_create_node|]. sh. Qed.
  Lemma emplace_all_makes o vs w u w' : w_err w = None -> emplace_equal_all cf comp o vs w = Done u w' ->
    exists k, n_nodes cf (length vs) (w_orc w) = (k, w_err w', w_orc w').
  Proof.
    revert w. induction vs as [|v vs IH]; intros w He; simpl.
    - intros [= <- <-]. exists 0. by rewrite He.
    - intros (a & w1 & H1 & (b & w2 & H2 & H3)%bind_done)%bind_done. unfold has_err in H2. injection H2 as <- <-.
      rewrite <-(tmakes_emplace_equal _ _ _ _ _ He H1). destruct (w_err w1) as [e|] eqn:E1.
      + injection H3 as <- <-. exists 0. by rewrite E1.
      + destruct (IH _ E1 H3) as [k Hk]. exists (S k). by rewrite Hk.
  Qed.

  (** ** What [mop_spec] leaves open *)

  Definition mop_quiet (op : mop V) : bool :=
    match op with
    | MoInsert _ _ | MoInsertLower _ _ | MoInsertHint _ _ _ | MoEmplace _ _ | MoEmplaceHint _ _ _ | MoEmplaceVals _ _ | MoCopy _ _ => false
    | _ => true
    end.
  Definition mop_rest (op : mop V) ls (o : list event) (e : option error) (a : mans V) ls' (o' : list event) : Prop :=
    match op with
    | MoInsert i x | MoInsertLower i x | MoInsertHint i _ x | MoEmplace i x | MoEmplaceHint i _ x =>
        match ls !! i, hval_of ls x with
        | Some _, Some _ => (e, o') = one_node cf o
        | _, _ => a = MsNone /\ o' = o
        end
    | MoEmplaceVals i vs =>
        a = MsNone /\
        match ls !! i with
        | Some l => exists k, n_nodes cf (length vs) o = (k, e, o') /\ ls' = <[ i := puts_last (take k vs) l ]> ls
        | None => o' = o
        end
    | MoEraseKey i x | MoFind i x | MoLower i x | MoUpper i x | MoRange i x | MoCount i x =>
        o' = o /\ match ls !! i, hval_of ls x with Some _, Some _ => True | _, _ => a = MsNone end
    | MoErase i p =>
        o' = o /\ match ls !! i with Some l => length l <= p -> a = MsNone | None => a = MsNone end
    | MoEraseRange i _ _ => o' = o /\ match ls !! i with Some l => True | None => a = MsNone end
    | MoEraseKeys _ _ | MoClear _ | MoMove _ _ | MoSwap _ _ => o' = o /\ a = MsNone
    | MoCopy i j =>
        a = MsNone /\
        match ls !! i, ls !! j with
        | Some _, Some r => if decide (i = j) then o' = o else exists k, n_nodes cf (length r) o = (k, e, o')
        | _, _ => o' = o
        end
    end.
  Definition mop_det op ls o e a ls' o' : Prop := mop_spec comp op ls e a ls' /\ mop_rest op ls o e a ls' o'.
  Fixpoint mops_det (ops : list (mop V)) ls o (rs : list (option error * mans V)) ls' : Prop :=
    match ops, rs with
    | [], [] => ls' = ls
    | op :: ops, (e, a) :: rs => exists ls1 o1, mop_det op ls o e a ls1 o1 /\ mops_det ops ls1 o1 rs ls'
    | _, _ => False
    end.

  (** ** Uniqueness *)

  (** The positions where a value can stand are a segment, so one of them is
      closest to the hint. *)
  Lemma put_near_unique p v l l1 l2 : put_near comp p v l l1 -> put_near comp p v l l2 -> l1 = l2.
  Proof.
    intros (j1 & S1 & N1 & ->) (j2 & S2 & N2 & ->). pose proof (N1 _ S2) as H12. pose proof (N2 _ S1) as H21.
    assert (Hmid : forall a b, may_stand comp v l a -> may_stand comp v l b -> a <= p `min` length l <= b -> may_stand comp v l (p `min` length l)).
    { intros a b (_ & _ & Hd) (_ & Ht & _) Hab. split_and!; [lia| |].
      - intros u [i Hi]%elem_of_list_lookup. apply lookup_take_Some in Hi as [Hi Hlt]. apply Ht. apply elem_of_list_lookup. exists i.
        apply lookup_take_Some. split; [done|lia].
      - intros u [i Hi]%elem_of_list_lookup. rewrite lookup_drop in Hi. apply Hd. apply elem_of_list_lookup. exists (p `min` length l - a + i).
        rewrite lookup_drop. rewrite <-Hi. f_equal. lia. }
    assert (j1 = j2) as ->; [|done]. set (q := p `min` length l) in *. unfold apart in *.
    destruct (decide (j1 <= q <= j2)) as [Hq|Hq].
    { pose proof (Hmid _ _ S1 S2 Hq) as Hs. pose proof (N1 _ Hs). pose proof (N2 _ Hs). lia. }
    destruct (decide (j2 <= q <= j1)) as [Hq'|Hq'].
    { pose proof (Hmid _ _ S2 S1 Hq') as Hs. pose proof (N1 _ Hs). pose proof (N2 _ Hs). lia. }
    lia.
  Qed.

  Lemma mop_det_unique op ls o1 o2 e1 e2 a1 a2 l1 l2 o1' o2' : same_failures o1 o2 ->
    mop_det op ls o1 e1 a1 l1 o1' -> mop_det op ls o2 e2 a2 l2 o2' -> e1 = e2 /\ a1 = a2 /\ l1 = l2 /\ same_failures o1' o2'.
  Proof.
    intros Hs (S1 & R1) (S2 & R2). destruct (one_node_same cf _ _ Hs) as [H1 H2].
    destruct op as [i x|i x|i p x|i x|i p x|i vs|i x|i vs|i p|i p n|i|i j|i j|i j|i x|i x|i x|i x|i x]; simpl in S1, S2, R1, R2.
    1-5: destruct (ls !! i) as [l|] eqn:Ei; [|naive_solver]; destruct (hval_of ls x) as [v|] eqn:Ex; [|naive_solver];
      rewrite <-R1, <-R2 in H1, H2; simpl in H1, H2; subst e2; (split; [done|]); destruct e1 as [e|];
      try (by destruct S1 as [-> ->], S2 as [-> ->]).
    1-2: destruct S1 as (-> & m1 & Hm1 & ->), S2 as (-> & m2 & Hm2 & ->);
      rewrite (put_near_unique _ _ _ _ _ Hm1 Hm2); done.
    - destruct R1 as [-> R1], R2 as [-> R2]. destruct (ls !! i) as [l|] eqn:Ei; [|naive_solver].
      destruct R1 as (k1 & R1 & ->), R2 as (k2 & R2 & ->).
      destruct (n_nodes_same cf (length vs) _ _ Hs) as [H3 H4]. rewrite R1, R2 in H3, H4. simpl in *. simplify_eq. done.
    - destruct S1 as [-> S1], S2 as [-> S2], R1 as [-> R1], R2 as [-> R2]. split; [done|].
      destruct (ls !! i) as [l|] eqn:Ei; [|naive_solver]. destruct (hval_of ls x) as [v|] eqn:Ex; naive_solver.
    - naive_solver.
    - destruct S1 as [-> S1], S2 as [-> S2], R1 as [-> R1], R2 as [-> R2]. split; [done|].
      destruct (ls !! i) as [l|] eqn:Ei; [|naive_solver]. destruct S1 as [-> S1], S2 as [-> S2].
      destruct (decide (p < length l)); [rewrite S1, S2 by done; done|]. rewrite R1, R2 by lia. done.
    - destruct S1 as [-> S1], S2 as [-> S2], R1 as [-> R1], R2 as [-> R2]. split; [done|].
      destruct (ls !! i) as [l|] eqn:Ei; naive_solver.
    - naive_solver.
    - destruct R1 as [-> R1], R2 as [-> R2].
      destruct (ls !! i) as [l|] eqn:Ei; [|naive_solver]. destruct (ls !! j) as [r|] eqn:Ej; [|naive_solver].
      destruct (decide (i = j)); [naive_solver|]. destruct R1 as [k1 R1], R2 as [k2 R2].
      destruct (n_nodes_same cf (length r) _ _ Hs) as [H3 H4]. rewrite R1, R2 in H3, H4. simpl in *. simplify_eq. done.
    - destruct S1 as [-> S1], S2 as [-> S2], R1 as [-> ->], R2 as [-> ->]. split_and!; try done.
      destruct (ls !! i), (ls !! j); congruence.
    - destruct S1 as [-> S1], S2 as [-> S2], R1 as [-> ->], R2 as [-> ->]. split_and!; try done.
      destruct (ls !! i), (ls !! j); congruence.
    - destruct S1 as (-> & -> & S1), S2 as (-> & -> & S2), R1 as [-> R1], R2 as [-> R2]. split_and!; try done. destruct (ls !! i), (hval_of ls x); congruence.
    - destruct S1 as (-> & -> & S1), S2 as (-> & -> & S2), R1 as [-> R1], R2 as [-> R2]. split_and!; try done. destruct (ls !! i), (hval_of ls x); congruence.
    - destruct S1 as (-> & -> & S1), S2 as (-> & -> & S2), R1 as [-> R1], R2 as [-> R2]. split_and!; try done. destruct (ls !! i), (hval_of ls x); congruence.
    - destruct S1 as (-> & -> & S1), S2 as (-> & -> & S2), R1 as [-> R1], R2 as [-> R2]. split_and!; try done. destruct (ls !! i), (hval_of ls x); congruence.
    - destruct S1 as (-> & -> & S1), S2 as (-> & -> & S2), R1 as [-> R1], R2 as [-> R2]. split_and!; try done. destruct (ls !! i), (hval_of ls x); congruence.
  Qed.
  Lemma mops_det_unique ops ls o1 o2 r1 r2 l1 l2 : same_failures o1 o2 ->
    mops_det ops ls o1 r1 l1 -> mops_det ops ls o2 r2 l2 -> r1 = r2 /\ l1 = l2.
  Proof.
    revert ls o1 o2 r1 r2. induction ops as [|op ops IH]; intros ls o1 o2 [|[e a] r1] [|[e' a'] r2] Hs; simpl; try done.
    - by intros -> ->.
    - intros (m1 & p1 & Hd1 & Hr1) (m2 & p2 & Hd2 & Hr2).
      destruct (mop_det_unique _ _ _ _ _ _ _ _ _ _ _ _ Hs Hd1 Hd2) as (<- & <- & <- & Hs').
      by destruct (IH m1 p1 p2 r1 r2) as [-> ->].
  Qed.

  (** ** The calls have that meaning *)

  Lemma none_tree (hds : list addr) i (k : tset -> MT (mans V)) w a w' :
    hds !! i = None -> with_tree (objs hds) i k w = Done a w' -> a = MsNone /\ w' = w.
  Proof. intros Hi. rewrite (with_tree_none cf _ _ _ Hi). by intros [= <- <-]. Qed.
  Lemma none_marg hds xss hv hf i x (k : tset -> targ V -> MT (mans V)) w a w' :
    srow hds xss hv -> heap_is w hv hf -> vals xss !! i = None \/ hval_of (vals xss) x = None ->
    with_tree (objs hds) i (fun o => with_marg (objs hds) x (k o)) w = Done a w' -> a = MsNone /\ w' = w.
  Proof.
    intros Hr Hh Hn Hd. destruct (hds !! i) as [h|] eqn:Ei; [|by eapply none_tree].
    destruct Hn as [Hn|Hn]; [rewrite (srow_vals_none _ _ _ _ _ _ Hr Hn) in Ei; done|].
    rewrite (with_tree_some cf _ _ _ _ Ei) in Hd. unfold with_marg in Hd. apply bind_done in Hd as (r & w1 & H1 & H2).
    assert (runs (t_get_arg (objs hds) x) w (fun r w' => r = None /\ w' = w)) as Hrun.
    { eapply (t_get_arg_spec cf wk); [exact Hr|exact Hh|done|]. intros b v Hv. congruence. }
    apply (runs_done _ _ _ _ _ Hrun) in H1 as [-> ->]. by injection H2 as <- <-.
  Qed.
  (** a call that takes an element argument and makes a node *)
  Lemma det_new hds xss hv hf i x (k : tset -> targ V -> MT (mans V)) w a w' :
    srow hds xss hv -> heap_is w hv hf -> w_err w = None -> (forall o b, tmakes cf (k o b)) ->
    with_tree (objs hds) i (fun o => with_marg (objs hds) x (k o)) w = Done a w' ->
    match vals xss !! i, hval_of (vals xss) x with
    | Some _, Some _ => (w_err w', w_orc w') = one_node cf (w_orc w)
    | _, _ => a = MsNone /\ w_orc w' = w_orc w
    end.
  Proof.
    intros Hr Hh He Hk Hd. destruct (vals xss !! i) as [l|] eqn:Ei; [destruct (hval_of (vals xss) x) as [v|] eqn:Ex|].
    - unfold with_tree in Hd. destruct (objs hds !! i) as [o|] eqn:Eo.
      + unfold with_marg in Hd. apply bind_done in Hd as (r & w1 & H1 & H2).
        assert (runs (t_get_arg (objs hds) x) w (fun r w' => w' = w /\ exists b, r = Some b)) as Hrun.
        { eapply (t_get_arg_spec cf wk); [exact Hr|exact Hh| |]; [congruence|]. intros b v' _ _. eauto. }
        apply (runs_done _ _ _ _ _ Hrun) in H1 as (-> & b & ->). by eapply Hk.
      + rewrite list_lookup_fmap in Eo. apply fmap_None in Eo. rewrite vals_lookup, (srow_none _ _ _ _ _ _ Hr Eo) in Ei. done.
    - destruct (none_marg hds xss hv hf i x k w a w' Hr Hh (or_intror Ex) Hd) as [-> ->]. done.
    - destruct (none_marg hds xss hv hf i x k w a w' Hr Hh (or_introl Ei) Hd) as [-> ->]. done.
  Qed.
  Lemma tmakes_ans o (m : MT addr) : tmakes cf m -> tmakes cf (ans_iter o m).
  Proof. intros Hm. unfold ans_iter. apply tmakes_bind_silent; [done|]. sh. Qed.

  Lemma det_copy_multi hds xss hv hf w i j a w' : srow hds xss hv -> heap_is w hv hf -> w_err w = None ->
    exec_mop cf comp (MoCopy i j) (objs hds) w = Done a w' ->
    mop_rest (MoCopy i j) (vals xss) (w_orc w) (w_err w') a (vals xss) (w_orc w').
  Proof.
    intros Hr Hh He Hd.
    assert (a = MsNone /\ exec_sop cf wk (SoCopy i j) (objs hds) w = Done AnsNone w') as [-> Hd'].
    { unfold exec_mop in Hd. unfold with_tree in Hd. unfold exec_sop, with_set. destruct (objs hds !! i) as [o|]; [|by injection Hd as <- <-].
      destruct (objs hds !! j) as [o2|]; [|by injection Hd as <- <-]. apply bind_done in Hd as (u & w1 & H1 & [= <- <-]). split; [done|].
      unfold bind. by rewrite H1. }
    destruct (det_copy cf wk hds xss hv hf w i j _ w' Hr Hh He Hd') as [_ Hx]. by split.
  Qed.

  (** several values *)
  Lemma emplace_all_det vs o xs t hf w (Q : unit -> W -> Prop) :
    swo comp -> sin o xs (w_heap w) hf t -> w_err w = None ->
    (forall ys t' w' n, sin o ys (w_heap w') hf t' -> ys.*2 = puts_last (take n vs) xs.*2 ->
       match w_err w' with None => n = length vs | Some e => n < length vs end ->
       n_nodes cf (length vs) (w_orc w) = (n, w_err w', w_orc w') -> Q tt w') ->
    runs (emplace_equal_all cf comp o (map TAVal vs)) w Q.
  Proof.
    intros Hswo. revert xs t w. induction vs as [|v vs IH]; intros xs t w Hs He HQ.
    - simpl. apply runs_ret. apply (HQ xs t w 0); [done|done| |]; by rewrite He.
    - cbn [map emplace_equal_all]. rbind.
      eapply runs_mono; [apply (runs_both _ _ (fun _ w' =>
        (exists a k t', xs = cpre k ++ cpost k /\ mupper comp k v /\ sin o (cpre k ++ (a, v) :: cpost k) (w_heap w') hf t' /\ w_err w' = None) \/
        (exists e, w_heap w' = w_heap w /\ w_err w' = Some e)) (fun _ w' => (w_err w', w_orc w') = one_node cf (w_orc w)))|].
      { eapply emplace_equal_spec; [done|exact Hs|done|done| |].
        - intros a k h' t' orc -> Hup Ha Hs'. left. by exists a, k, t'.
        - intros w' e Hw' He' Hne. right. by exists e. }
      { eapply (runs_fact _ _ (fun _ _ => True)); [by eapply emplace_equal_spec|]. intros a w' Hd. by eapply tmakes_emplace_equal. }
      intros r w1 [[(a & k & t' & -> & Hup & Hs' & He1)|(e & Hw1 & He1)] Hm]; rbind; apply runs_has_err; rewrite He1 in Hm |- *; simpl.
      + eapply IH; [exact Hs'|done|]. intros ys t'' w' n Hs'' Hp Hn Hk. apply (HQ ys t'' w' (S n)); [done| | |].
        * simpl. by rewrite Hp, (put_last_ctx comp k a v Hup).
        * destruct (w_err w'); simpl; lia.
        * simpl. by rewrite <-Hm, Hk.
      + apply runs_ret. apply (HQ xs t w1 0); [by rewrite Hw1|done| |].
        * rewrite He1. simpl. lia.
        * simpl. by rewrite <-Hm, He1.
  Qed.

  Definition mdet_post op hds xss hf w (a : mans V) w' : Prop := exists xss' hv', srow hds xss' hv' /\ heap_is w' hv' hf /\
    mop_det op (vals xss) (w_orc w) (w_err w') a (vals xss') (w_orc w').

  Lemma det_emplace_vals hds xss hv hf w i vs : swo comp -> srow hds xss hv -> heap_is w hv hf -> w_err w = None ->
    runs (exec_mop cf comp (MoEmplaceVals i vs) (objs hds)) w (mdet_post (MoEmplaceVals i vs) hds xss hf w).
  Proof.
    intros Hw Hr Hh He. unfold exec_mop. destruct (hds !! i) as [h|] eqn:Ei.
    - rewrite (with_tree_some cf _ _ _ _ Ei). destruct (srow_lookup _ _ _ _ _ _ _ Hr Ei) as [xs Hxs].
      destruct (srow_at _ _ _ _ _ _ _ _ Hr Ei Hxs) as (R & HR & Ho1 & Hback).
      destruct (own_get _ _ _ _ _ _ _ _ Ho1 Hh) as (hr & t & HoR & Hd & Hs). pose proof (vals_at _ _ _ Hxs) as Hvi.
      rbind. eapply emplace_all_det; [done|exact Hs|done|]. intros ys t' w' n Hs' Hp Hn Hk. apply runs_ret.
      destruct (own_put _ _ _ _ _ _ _ _ _ HoR Hd Hs') as (hv' & Ho' & Hh').
      exists (<[ i := ys ]> xss), hv'. rewrite vals_insert. split; [by apply Hback|]. split; [done|]. split; simpl; rewrite Hvi.
      + exists n. split; [done|]. by rewrite Hp.
      + split; [done|]. exists n. split; [done|]. by rewrite Hp.
    - rewrite (with_tree_none cf _ _ _ Ei). apply runs_ret. exists xss, hv. split; [done|]. split; [done|].
      split; simpl; by rewrite vals_lookup, (srow_none _ _ _ _ _ _ Hr Ei).
  Qed.

  Lemma mquiet_silent op os : mop_quiet op = true -> silent (exec_mop cf comp op os).
  Proof. destruct op; simpl; try done; intros _; unfold exec_mop, with_tree, with_marg, ans_iter; sh. Qed.

  Lemma mdet_quiet op hds xss hv hf w a w' : mop_quiet op = true -> srow hds xss hv -> heap_is w hv hf ->
    exec_mop cf comp op (objs hds) w = Done a w' -> forall ls', mop_rest op (vals xss) (w_orc w) (w_err w') a ls' (w_orc w').
  Proof.
    intros Hq Hr Hh Hd ls'. pose proof (mquiet_silent _ _ Hq _ _ _ Hd) as (Ho & _). rewrite Ho.
    assert (Harg : forall i x (k : tset -> targ V -> MT (mans V)),
      with_tree (objs hds) i (fun o => with_marg (objs hds) x (k o)) w = Done a w' ->
      match vals xss !! i, hval_of (vals xss) x with Some _, Some _ => True | _, _ => a = MsNone end).
    { intros i x k Hk. destruct (vals xss !! i) as [l|] eqn:Ei; [destruct (hval_of (vals xss) x) as [v|] eqn:Ex; [done|]|];
        eapply none_marg; try exact Hk; try done; auto. }
    unfold exec_mop in Hd.
    destruct op as [i x|i x|i p x|i x|i p x|i vs|i x|i vs|i p|i p n|i|i j|i j|i j|i x|i x|i x|i x|i x]; try done; simpl; (split; [done|]); try (eapply Harg; exact Hd).
    - unfold with_tree in Hd. destruct (objs hds !! i); [|by injection Hd]. apply bind_done in Hd as (? & ? & _ & Hd). by injection Hd.
    - destruct (vals xss !! i) as [l|] eqn:Ei; [|by eapply none_tree; [|exact Hd]; eapply srow_vals_none].
      intros Hp. destruct (hds !! i) as [h|] eqn:Eh; [|by eapply none_tree; [|exact Hd]].
      rewrite (with_tree_some cf _ _ _ _ Eh) in Hd. destruct (srow_lookup _ _ _ _ _ _ _ Hr Eh) as [xs Hxs].
      rewrite (vals_at _ _ _ Hxs) in Ei. simplify_eq. rewrite fmap_length in Hp.
      destruct (srow_at _ _ _ _ _ _ _ _ Hr Eh Hxs) as (R & HR & Ho1 & _).
      destruct (own_get _ _ _ _ _ _ _ _ Ho1 Hh) as (hr & t & _ & _ & Hs).
      apply bind_done in Hd as (pos & w1 & H1 & H2).
      assert (runs (t_iter_at (set h) p) w (fun r _ => r = t_end (set h))) as Hrun.
      { eapply (t_iter_at_spec wk); [exact Hs|]. by rewrite tpos_end by lia. }
      apply (runs_done _ _ _ _ _ Hrun) in H1 as ->. rewrite decide_True in H2 by done. by injection H2 as <- <-.
    - destruct (vals xss !! i) as [l|] eqn:Ei; [done|]. eapply none_tree; [|exact Hd]. by eapply srow_vals_none.
    - unfold with_tree in Hd. destruct (objs hds !! i); [|by injection Hd]. apply bind_done in Hd as (? & ? & _ & Hd). by injection Hd.
    - unfold with_tree in Hd. destruct (objs hds !! i); [|by injection Hd]. destruct (objs hds !! j); [|by injection Hd]. apply bind_done in Hd as (? & ? & _ & Hd). by injection Hd.
    - unfold with_tree in Hd. destruct (objs hds !! i); [|by injection Hd]. destruct (objs hds !! j); [|by injection Hd]. apply bind_done in Hd as (? & ? & _ & Hd). by injection Hd.
  Qed.

  Lemma det_exec_mop op hds xss hv hf w : swo comp -> srow hds xss hv -> heap_is w hv hf -> w_err w = None ->
    runs (exec_mop cf comp op (objs hds)) w (mdet_post op hds xss hf w).
  Proof.
    intros Hw Hr Hh He.
    assert (Hgen : (forall a w', exec_mop cf comp op (objs hds) w = Done a w' -> forall ls', mop_rest op (vals xss) (w_orc w) (w_err w') a ls' (w_orc w')) ->
      runs (exec_mop cf comp op (objs hds)) w (mdet_post op hds xss hf w)).
    { intros Hrest. pose proof (runs_exec_mop cf comp op hds xss hv hf w Hw Hr Hh He) as (a & w' & Hd & xss' & hv' & Hr' & Hh' & Hs & _).
      exists a, w'. split; [done|]. exists xss', hv'. split; [done|]. split; [done|]. split; [done|]. by apply Hrest. }
    destruct (mop_quiet op) eqn:Eq.
    { apply Hgen. intros a w' Hd ls'. by eapply mdet_quiet. }
    destruct op as [i x|i x|i p x|i x|i p x|i vs|i x|i vs|i p|i p n|i|i j|i j|i j|i x|i x|i x|i x|i x]; try done.
    - apply Hgen. intros a w' Hd ls'. simpl. eapply det_new; [exact Hr|exact Hh|done| |exact Hd]. intros o b. apply tmakes_ans, tmakes_insert_equal.
    - apply Hgen. intros a w' Hd ls'. simpl. eapply det_new; [exact Hr|exact Hh|done| |exact Hd]. intros o b. apply tmakes_ans, tmakes_insert_equal_lower.
    - apply Hgen. intros a w' Hd ls'. simpl. eapply det_new; [exact Hr|exact Hh|done| |exact Hd]. intros o b. apply tmakes_silent_bind; [sh|]. intros q. apply tmakes_ans, tmakes_insert_equal_at.
    - apply Hgen. intros a w' Hd ls'. simpl. eapply det_new; [exact Hr|exact Hh|done| |exact Hd]. intros o b. apply tmakes_ans, tmakes_emplace_equal.
    - apply Hgen. intros a w' Hd ls'. simpl. eapply det_new; [exact Hr|exact Hh|done| |exact Hd]. intros o b. apply tmakes_silent_bind; [sh|]. intros q. apply tmakes_ans, tmakes_emplace_hint_equal.
    - by eapply det_emplace_vals.
    - apply Hgen. intros a w' Hd ls'. exact (det_copy_multi hds xss hv hf w i j a w' Hr Hh He Hd).
  Qed.
  Lemma det_exec_mops ops hds xss hv hf w (Q : _ -> W -> Prop) :
    swo comp -> srow hds xss hv -> heap_is w hv hf ->
    (forall rs xss' hv' w', srow hds xss' hv' -> heap_is w' hv' hf -> mops_det ops (vals xss) (w_orc w) rs (vals xss') -> Q rs w') ->
    runs (exec_mops cf comp ops (objs hds)) w Q.
  Proof.
    intros Hswo. revert xss hv w Q. induction ops as [|op ops IH]; intros xss hv w Q Hr Hh HQ; simpl.
    - apply runs_ret. by eapply HQ.
    - rbind. apply runs_put_err. rbind. eapply runs_mono; [eapply (det_exec_mop op); [done|exact Hr| |]; [exact Hh|done]|].
      intros a w1 (xss1 & hv1 & Hr1 & Hh1 & Hs). rbind. apply runs_get_err. rbind.
      eapply IH; [exact Hr1|exact Hh1|]. intros rs xss' hv' w' Hr' Hh' Hs'. apply runs_ret. eapply HQ; [done..|]. simpl.
      exists (vals xss1), (w_orc w1). split; [exact Hs|done].
  Qed.
End det.
