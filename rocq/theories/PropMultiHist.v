(** * Property C71: histories of calls on trees that keep equal values

    Stated over the model (RbMultiModel.v, RbModel.v) with the client programs
    and the plain-list meaning of RbMultiHistSpec.v. *)
From Verif Require Import RbExtra RbMultiHist PropMulti.
From Verif Require ListSort.

Definition mhw (orc : list event) : world (tcell nat) := World ∅ orc None 0 0.

(** Any history on [k] trees, from any heap and against any allocator: every
    call reports, returns and does what the plain lists say; all trees show
    those lists; destroying them gives back exactly the memory of the start. *)
Theorem C71_history V (cf : cfg V) comp k ops w :
  swo comp ->
  runs (multi_program cf comp k ops) w (fun r w' =>
    length r.1 = k /\
    exists ls, mops_spec comp ops (replicate k []) r.2 ls /\ length ls = k /\
      (forall i o l, r.1 !! i = Some o -> ls !! i = Some l -> mset_shows comp w' o l) /\
      runs (destroy_sets r.1) w' (fun _ w'' => w_heap w'' = w_heap w)).
Proof.
  intros Hswo. unfold multi_program. rbind.
  eapply (new_sets_spec cf (wk comp) k w (w_heap w) ∅ []); [done| |].
  { split; [by rewrite (left_id_L ∅ (∪))|apply map_disjoint_empty_l]. }
  intros hds hv' w1 Hl Ho Hh _. rewrite app_nil_r in Ho.
  assert (srow cf (wk comp) hds (replicate k []) hv') as Hr. { split; [by rewrite replicate_length|done]. }
  rbind. eapply runs_exec_mops; [done|exact Hr|exact Hh|]. intros rs xss' hv2 w' Hr' Hh' Hs. apply runs_ret. cbn [fst snd].
  split; [by rewrite fmap_length|]. exists (vals xss'). split_and!.
  - unfold vals in Hs at 1. by rewrite fmap_replicate in Hs.
  - unfold vals. rewrite fmap_length. rewrite <-Hl. symmetry. apply Hr'.
  - intros i o l Hi Hls. rewrite list_lookup_fmap in Hi. destruct (hds !! i) as [h|] eqn:Eh; simplify_eq/=.
    rewrite vals_lookup in Hls. destruct (xss' !! i) as [xs|] eqn:Ex; simplify_eq/=. by eapply mrow_shows.
  - by eapply destroy_sets_spec.
Qed.
Print Assumptions C71_history.

(** No call moves or destroys an element that it is not asked to remove. *)
Theorem C71_elements_stay V (cf : cfg V) comp op hds xss hv hf w :
  swo comp -> length hds = length xss -> msets_own comp (c_dflt cf) (zip hds xss) hv -> heap_is w hv hf -> w_err w = None ->
  runs (exec_mop cf comp op (TSet (c_dflt cf) <$> hds)) w (fun _ w' =>
    exists xss' hv', length hds = length xss' /\ msets_own comp (c_dflt cf) (zip hds xss') hv' /\ heap_is w' hv' hf /\
      forall a v, (a, v) ∈ concat xss -> ~ mop_kills comp op xss (a, v) ->
        (a, v) ∈ concat xss' /\ tread a w' = Done v w').
Proof.
  intros Hswo Hl Ho%msets_own_wk Hh He. eapply runs_mono; [by eapply runs_exec_mop|].
  intros _ w' (xss' & hv' & [Hl' Ho'] & Hh' & _ & Hk). exists xss', hv'. split_and!; [done|by apply msets_own_wk|done|].
  intros a v Hin Hnk. assert (Hin' : (a, v) ∈ concat xss') by (by destruct (Hk _ Hin)).
  split; [done|]. apply in_rows in Hin' as (i & xs & Hxs & Hx).
  destruct (lookup_lt_is_Some_2 hds i) as [h Hi]; [rewrite Hl'; by eapply lookup_lt_Some|].
  destruct (srow_at cf (wk comp) hds xss' hv' i h xs (conj Hl' Ho') Hi Hxs) as (R & _ & Ho1 & _).
  destruct (own_get _ _ _ _ _ _ _ _ Ho1 Hh') as (hr & t & _ & _ & Hs).
  apply elem_of_list_lookup in Hx as [j Hj]. apply t_runs_state. intros Q HQ. by eapply (tread_spec (wk comp)).
Qed.
Print Assumptions C71_elements_stay.

(** Inserting values one after the other is a stable sort of those whose
    insertion succeeded. *)
Fixpoint inserted {V} (vs : list V) (rs : list (option error * mans V)) : list V :=
  match vs, rs with
  | v :: vs, (e, _) :: rs => match e with None => v :: inserted vs rs | Some _ => inserted vs rs end
  | _, _ => []
  end.
Lemma ranked_put_last {V} (comp : V -> V -> bool) u v l :
  swo comp -> lsorted comp l -> ranked comp u (put_last comp v l) = ranked comp u (l ++ [v]).
Proof.
  intros Hswo Hl. unfold ranked, put_last. rewrite !filter_app, (filter_cons _ v), filter_cons. case_decide as Hu.
  - assert (filter (fun x => same_rank comp u x = true) (filter (fun x => comp v x = true) l) = []) as ->.
    { apply filter_none. intros x [Hx _]%elem_of_list_filter Hr. unfold same_rank in Hu, Hr.
      apply andb_true_iff in Hu as [H1%negb_true_iff H2%negb_true_iff]. apply andb_true_iff in Hr as [H3%negb_true_iff H4%negb_true_iff].
      destruct Hswo as (_ & _ & Hn). destruct (Hn _ _ u Hx); congruence. }
    f_equal. clear Hl. induction l as [|x l IH]; [done|]. rewrite (filter_cons _ x l). case_decide as Hx.
    + rewrite !filter_cons. destruct (decide (same_rank comp u x = true)); [by f_equal|done].
    + rewrite (filter_cons _ x l), decide_False; [done|]. intros Hr. apply Hx. unfold same_rank in Hu, Hr.
      apply andb_true_iff in Hu as [H1%negb_true_iff H2%negb_true_iff]. apply andb_true_iff in Hr as [H3%negb_true_iff H4%negb_true_iff].
      destruct (comp v x) eqn:Ec; [|done]. destruct Hswo as (_ & _ & Hn). destruct (Hn _ _ u Ec); congruence.
  - simpl. rewrite app_nil_r, <-filter_app. clear Hu. induction l as [|x l IH]; [done|].
    pose proof (proj2 (proj1 (ListSort.lsorted_cons comp x l) Hl)) as Hl'. specialize (IH Hl').
    rewrite !(filter_cons _ x l). destruct (comp v x) eqn:Ec.
    + assert (filter (fun y => comp v y = false) l = []) as Hnil.
      { apply filter_none. intros y [j Hy]%elem_of_list_lookup Hvy. specialize (Hl 0 (S j) x y ltac:(lia) eq_refl Hy).
        destruct Hswo as (_ & _ & Hn). destruct (Hn _ _ y Ec); congruence. }
      rewrite decide_False by done. rewrite decide_True by done. rewrite Hnil in *. simpl in *. rewrite !(filter_cons _ x).
      by rewrite IH.
    + rewrite decide_True by done. rewrite decide_False by done. simpl. rewrite !(filter_cons _ x). by rewrite IH.
Qed.
Lemma put_last_perm {V} (comp : V -> V -> bool) v l : put_last comp v l ≡ₚ l ++ [v].
Proof.
  unfold put_last. rewrite <-Permutation_middle, <-Permutation_cons_append. constructor.
  induction l as [|x l IH]; [done|]. rewrite !(filter_cons _ x l). destruct (comp v x).
  - rewrite decide_False by done. rewrite decide_True by done. rewrite <-Permutation_middle. by constructor.
  - rewrite decide_True by done. rewrite decide_False by done. simpl. by constructor.
Qed.
Lemma put_last_sorted {V} (comp : V -> V -> bool) v l : swo comp -> lsorted comp l -> lsorted comp (put_last comp v l).
Proof.
  intros (Hirr & Htr & Hn). unfold put_last. induction l as [|x l IH]; intros Hl.
  - apply ListSort.lsorted_cons. split; [intros y Hy; by apply elem_of_nil in Hy|apply ListSort.lsorted_nil].
  - apply ListSort.lsorted_cons in Hl as [Hx Hl]. specialize (IH Hl). rewrite !(filter_cons _ x l). destruct (comp v x) eqn:Ec.
    + rewrite decide_False by done. rewrite decide_True by done.
      assert (filter (fun y => comp v y = false) l = []) as Hnil.
      { apply filter_none. intros y Hy Hvy. destruct (Hn _ _ y Ec) as [|Hc]; [congruence|]. rewrite (Hx y Hy) in Hc. done. }
      rewrite Hnil in *. simpl in *. apply ListSort.lsorted_cons in IH as [H1 H2]. apply ListSort.lsorted_cons. split.
      * intros y [->|Hy]%elem_of_cons; [|by apply H1]. destruct (comp x v) eqn:Exv; [|done]. specialize (Htr _ _ _ Exv Ec). by rewrite Hirr in Htr.
      * apply ListSort.lsorted_cons. split; [|done]. intros y [_ Hy]%elem_of_list_filter. by apply Hx.
    + rewrite decide_True by done. rewrite decide_False by done. simpl. apply ListSort.lsorted_cons. split; [|done].
      intros y Hy. apply elem_of_app in Hy as [Hy|[->|Hy]%elem_of_cons].
      * apply elem_of_list_filter in Hy as [_ Hy]. by apply Hx.
      * done.
      * apply elem_of_list_filter in Hy as [_ Hy]. by apply Hx.
Qed.
Lemma inserted_sorted {V} (comp : V -> V -> bool) vs l rs ls :
  swo comp -> lsorted comp l -> mops_spec comp (map (fun v => MoInsert 0 (HVal v)) vs) [l] rs ls ->
  exists l', ls = [l'] /\ lsorted comp l' /\ l' ≡ₚ l ++ inserted vs rs /\ forall u, ranked comp u l' = ranked comp u (l ++ inserted vs rs).
Proof.
  intros Hswo. revert l rs. induction vs as [|v vs IH]; intros l rs Hl Hs; destruct rs as [|[e a] rs]; try done.
  - simpl in Hs. subst ls. exists l. simpl. by rewrite app_nil_r.
  - destruct Hs as (ls1 & Hs1 & Hs). simpl in Hs1. simpl inserted. destruct e as [e|].
    + destruct Hs1 as [_ ->]. by apply IH.
    + destruct Hs1 as [_ ->]. simpl in Hs. destruct (IH _ _ (put_last_sorted _ v _ Hswo Hl) Hs) as (l' & -> & Hl' & Hp & Hr).
      exists l'. split_and!; [done|done| |].
      * by rewrite Hp, put_last_perm, <-(assoc_L (++)).
      * intros u. rewrite Hr. rewrite (cons_middle v l). unfold ranked. rewrite (filter_app _ (put_last comp v l)), (assoc_L (++)), (filter_app _ (l ++ [v])).
        f_equal. by apply ranked_put_last.
Qed.

Theorem C71_insertion_order V (cf : cfg V) comp vs w :
  swo comp ->
  runs (multi_program cf comp 1 (map (fun v => MoInsert 0 (HVal v)) vs)) w (fun r w' =>
    exists o l, r.1 = [o] /\ t_walk o w' = Done l w' /\ lsorted comp l /\ l ≡ₚ inserted vs r.2 /\
      forall u, ranked comp u l = ranked comp u (inserted vs r.2)).
Proof.
  intros Hswo. eapply runs_mono; [by apply C71_history|]. intros [os rs] w' (Hk & ls & Hs & Hl & Hsh & _). simpl in *.
  destruct (inserted_sorted comp vs [] rs ls Hswo) as (l & -> & Hsort & Hp & Hr); [apply ListSort.lsorted_nil|done|].
  destruct os as [|o [|]]; try done. exists o, l. split_and!; [done| |done|done|done].
  by destruct (Hsh 0 o l eq_refl eq_refl) as (_ & _ & _ & Hw & _).
Qed.
Print Assumptions C71_insertion_order.

#[local] Instance mans_eq_dec : EqDecision (mans nat).
Proof. solve_decision. Defined.
(** two trees with equal elements; one allocation and one element copy fail *)
Example C71_example :
  let ops := [MoInsert 0 (HVal 31); MoInsert 0 (HVal 25); MoInsert 0 (HVal 34); MoInsert 0 (HVal 34); MoInsertLower 0 (HVal 37);
              MoInsertHint 0 3 (HVal 30); MoInsertHint 0 9 (HVal 28); MoEmplace 0 (HElem 0 0); MoEmplaceVals 0 [39; 10];
              MoCount 0 (HVal 33); MoRange 0 (HVal 33); MoFind 0 (HVal 22); MoLower 0 (HVal 22); MoUpper 0 (HVal 22); MoCopy 1 0;
              MoEraseKey 1 (HElem 1 3); MoErase 0 1; MoEraseKeys 0 [10; 50]; MoSwap 0 1] in
  let w := mhw [EvOk 5; EvOk 1; EvOk 6; EvOk 1; EvFail 0; EvOk 8; EvFail 7] in
  runs (let! r := multi_program mcD tens 2 ops in
        let! l0 := t_walk (default (TSet 0 1) (r.1 !! 0)) in
        let! l1 := t_walk (default (TSet 0 1) (r.1 !! 1)) in
        ret (r.2, l0, l1)) w (fun r _ => r =
    ([(None, MsIter (Some 31)); (None, MsIter (Some 25)); (Some EBadAlloc, MsIter None); (Some (EElem 7), MsIter None);
      (None, MsIter (Some 37)); (None, MsIter (Some 30)); (None, MsIter (Some 28)); (None, MsIter (Some 25)); (None, MsNone);
      (None, MsNum 4); (None, MsList [37; 31; 30; 39]); (None, MsIter (Some 25)); (None, MsIter (Some 25)); (None, MsIter (Some 37));
      (None, MsNone); (None, MsNum 3); (None, MsIter (Some 28)); (None, MsNone); (None, MsNone)],
     [10; 37; 31; 30; 39], [28; 25; 37; 31; 30; 39])).
Proof. cbv zeta. compute_run. Qed.
Example C71_example_stay :
  swo tens /\ msets_own tens 0 [(1%positive, mxX); (20%positive, mxX2)] (set_heap_of 0 1 mxT1 ∪ mxH2) /\
  mop_kills tens (MoEraseKey 0 (HElem 0 2)) [mxX; mxX2] (3%positive, 25) /\
  ~ mop_kills tens (MoEraseKey 0 (HElem 0 2)) [mxX; mxX2] (7%positive, 40) /\
  runs (let! a := exec_mop mcD tens (MoEraseKey 0 (HElem 0 2)) [mxO; mxO2] in
        do! exec_mop mcD tens (MoSwap 0 1) [mxO; mxO2] in
        let! x := tread 7 in let! l := t_walk mxO in let! l2 := t_walk mxO2 in ret (a, x, l, l2)) (mw2 []) (fun r _ =>
    r = (MsNum 3, 40, [17; 15; 50], [12; 33; 40])).
Proof.
  split_and!.
  - apply tens_swo.
  - exists (set_heap_of 0 1 mxT1), mxH2. split_and!; [done|apply mx_disj|apply mset_own_set, good_own; by vm_compute|].
    exists mxH2, ∅. split_and!; [by rewrite (right_id_L ∅ (∪))|apply map_disjoint_empty_r|apply mx_own2|done].
  - exists mxX, 21. split_and!; [done|by vm_compute; set_solver|done|done].
  - intros (xs & v & Hx & Hin & Hv & H1 & H2). simpl in Hx, Hv. simplify_eq.
  - compute_run.
Qed.
