(** * Property C76: inserting a range of values into a set

    Stated over the model (RbModel.v) with the vocabulary of RbSpec.v.
    [Forall2 (targ_is [] hf) ks vs]: reading the range gives the values [vs],
    none of which lies in the set itself. *)
From Verif Require Import RbExtra RbHistSpec.
From Verif Require Import PropSet.
From Verif Require RbHist.

(** The first [m] values of the range were dealt with; [m] is all of them
    unless an error is reported.  The elements that were there stay, in their
    nodes and in their order.  Every new element holds the first value of the
    range of its kind, and no element of that kind was there before.  Every
    value dealt with has an equivalent element now.  One node is allocated for
    each new element. *)
Theorem C76_insert_range V (cf : cfg V) comp o ks vs xs hf w :
  swo comp -> set_is comp o xs hf w -> Forall2 (targ_is [] hf) ks vs -> w_err w = None ->
  runs (insert_unique_range cf comp o ks) w (fun _ w' =>
    exists ys m, set_is comp o ys hf w' /\ xs `sublist_of` ys /\
      (forall p, p ∈ ys -> p ∈ xs \/
         ((forall q, q ∈ xs -> ~ equivalent comp q.2 p.2) /\
          exists i, i < m /\ vs !! i = Some p.2 /\ forall j u, j < i -> vs !! j = Some u -> ~ equivalent comp u p.2)) /\
      (forall i v, i < m -> vs !! i = Some v -> exists p, p ∈ ys /\ equivalent comp p.2 v) /\
      ((m = length vs /\ w_err w' = None /\
        w_allocs w' = w_allocs w + (length ys - length xs) /\ w_ctors w' = w_ctors w + (length ys - length xs)) \/
       (m < length vs /\ exists e, w_err w' = Some e /\ tnode_error cf e))).
Proof.
  intros Hswo Hs Hks. revert xs w Hs. induction Hks as [|k v ks vs Hk Hks IH]; intros xs w Hs He.
  { apply runs_ret. exists xs, 0. split; [done|]. split; [done|]. split; [by left|]. split; [intros; lia|]. left. rewrite Nat.sub_diag.
    split; [done|]. split; [done|]. split; lia. }
  cbn [insert_unique_range]. assert (targ_is xs hf k v) as Hk'.
  { destruct k as [|a]; [exact Hk|]. destruct Hk as [Hk|Hk]; [by apply elem_of_nil in Hk|by right]. }
  assert (t_end o = tpos (t_hdr o) xs (length xs)) as Hend by (by rewrite tpos_end by lia).
  pose proof Hs as Hset. apply set_is_sin in Hs as [t Hs]. pose proof (targ_rd _ _ _ _ _ _ _ _ Hs Hk') as Hrd.
  assert (forall xs1 w1, set_is comp o xs1 hf w1 -> w_err w1 = None -> xs `sublist_of` xs1 ->
    (forall p, p ∈ xs1 -> p ∈ xs \/ (p.2 = v /\ forall q, q ∈ xs -> ~ equivalent comp q.2 v)) ->
    (exists p, p ∈ xs1 /\ equivalent comp p.2 v) ->
    w_allocs w1 = w_allocs w + (length xs1 - length xs) -> w_ctors w1 = w_ctors w + (length xs1 - length xs) ->
    runs (let! e := has_err in if (e : bool) then ret tt else insert_unique_range cf comp o ks) w1 (fun _ w' =>
      exists ys m, set_is comp o ys hf w' /\ xs `sublist_of` ys /\
        (forall p, p ∈ ys -> p ∈ xs \/
           ((forall q, q ∈ xs -> ~ equivalent comp q.2 p.2) /\
            exists i, i < m /\ (v :: vs) !! i = Some p.2 /\ forall j u, j < i -> (v :: vs) !! j = Some u -> ~ equivalent comp u p.2)) /\
        (forall i u, i < m -> (v :: vs) !! i = Some u -> exists p, p ∈ ys /\ equivalent comp p.2 u) /\
        ((m = length (v :: vs) /\ w_err w' = None /\
          w_allocs w' = w_allocs w + (length ys - length xs) /\ w_ctors w' = w_ctors w + (length ys - length xs)) \/
         (m < length (v :: vs) /\ exists e, w_err w' = Some e /\ tnode_error cf e)))) as Hgo.
  { intros xs1 w1 Hs1 He1 Hsub Hnew (pv & Hpv & Hpe) Hal Hct. rbind. apply runs_has_err. rewrite He1. cbn.
    eapply runs_mono; [by apply IH|]. intros _ w' (ys & m & Hys & Hsub2 & Hin & Hall & Hend2). exists ys, (S m).
    pose proof (sublist_length _ _ Hsub) as Hl1. pose proof (sublist_length _ _ Hsub2) as Hl2.
    assert (forall p, p ∈ xs1 -> p ∈ ys) as Hmem1 by (intros p Hp; eapply elem_of_submseteq; [exact Hp|by apply sublist_submseteq]).
    assert (forall p, p ∈ xs -> p ∈ xs1) as Hmem by (intros p Hp; eapply elem_of_submseteq; [exact Hp|by apply sublist_submseteq]).
    split; [done|]. split; [by etrans|]. split_and!.
    - intros p Hp. destruct (Hin p Hp) as [Hp1|(Hno & i & Hi & Hvi & Hfirst)].
      + destruct (Hnew p Hp1) as [?|[Hpv' Hno]]; [by left|right]. rewrite Hpv'. split; [done|]. exists 0. split; [lia|]. split; [done|]. intros; lia.
      + right. split; [intros q Hq; apply Hno; auto|]. exists (S i). split; [lia|]. split; [done|].
        intros [|j] u Hj Hu; simpl in Hu.
        * injection Hu as <-. intros Hc. apply (Hno pv Hpv). by eapply equivalent_trans.
        * apply (Hfirst j); [lia|done].
    - intros [|i] u Hi Hu; simpl in Hu; [injection Hu as <-; eauto|]. apply (Hall i); [lia|done].
    - destruct Hend2 as [(-> & Hw & Ha & Hc)|(Hm & He')]; [left|right; split; [simpl; lia|done]].
      split; [done|]. split; [done|]. split; lia. }
  rbind. rewrite Hend. eapply insert_at_spec; [done|exact Hs|exact Hrd|done| | |].
  - intros a pre post h' t' orc Hxs Hfr Hs' _. apply (Hgo (pre ++ (a, v) :: post)).
    + apply set_is_sin. by exists t'.
    + done.
    + rewrite Hxs. apply sublist_app; [done|]. by apply sublist_cons.
    + intros p. rewrite Hxs, !elem_of_app, elem_of_cons. intros [?|[->|?]]; [auto| |auto]. right. split; [done|].
      intros q Hq. destruct Hs' as (_ & _ & _ & Hasc). apply (RbHist.asc_absent comp pre a v post Hasc).
      apply elem_of_list_fmap. exists q. split; [done|]. exact Hq.
    + exists (a, v). split; [apply elem_of_app; right; by left|]. destruct Hswo as (Hirr & _). split; apply Hirr.
    + simpl. rewrite Hxs, !app_length. simpl. lia.
    + simpl. rewrite Hxs, !app_length. simpl. lia.
  - intros i a u Hi H1 H2. apply (Hgo xs); [done|done|done|by left| |lia|lia]. exists (a, u). split; [by eapply elem_of_list_lookup_2|done].
  - intros w' e Hw' He' Hne _ _. rbind. apply runs_has_err. rewrite He'. cbn. apply runs_ret. exists xs, 0.
    split. { destruct Hset as (hv & Ho & Hh). exists hv. split; [done|]. unfold heap_is. by rewrite Hw'. }
    split; [done|]. split; [by left|]. split; [intros; lia|]. right. split; [simpl; lia|]. by exists e.
Qed.
Print Assumptions C76_insert_range.

(** five values, of which 10 is there already and 7 comes twice; then the
    same with an allocator that fails on the third node *)
Example C76_example :
  let ks := [TAVal 7; TAVal 10; TAVal 50; TAVal 7; TAVal 12] in
  set_is nat_lt exO exX ∅ (tw1 [EvOk 51; EvOk 1; EvOk 52; EvOk 1; EvOk 53]) /\ Forall2 (targ_is [] ∅) ks [7; 10; 50; 7; 12] /\
  runs (do! insert_unique_range tcD nat_lt exO ks in t_walk exO) (tw1 [EvOk 51; EvOk 1; EvOk 52; EvOk 1; EvOk 53]) (fun l w' =>
    l = [5; 7; 10; 12; 15; 20; 30; 40; 50] /\ w_allocs w' = 3 /\ w_err w' = None) /\
  runs (do! insert_unique_range tcD nat_lt exO ks in t_walk exO) (tw1 [EvOk 51; EvOk 1; EvOk 52; EvOk 1; EvFail 0]) (fun l w' =>
    l = [5; 7; 10; 15; 20; 30; 40; 50] /\ w_err w' = Some EBadAlloc).
Proof. intros ks. split; [apply ex_set|]. split; [by repeat constructor|]. split; compute_run. Qed.
