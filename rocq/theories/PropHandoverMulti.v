(** * Property C82: containers handed from thread to thread; trees that keep equal values

    Vocabulary: Handover.v, PropHandoverSet.v. *)
From Verif Require Import RbExtra RbMultiHist RoundsSpec PropSet PropMulti PropMultiHist PropRounds ConcMulti PropConc PropConcSet Handover PropHandoverSet.

(** The threads have trees, given by their headers, and make calls on them. *)
Definition multi_calls {V} (cf : cfg V) comp (ops : list (mop V)) (hds : list addr) : M (tcell V) (list addr * list (option error * mans V)) :=
  let! rs := exec_mops cf comp ops (TSet (c_dflt cf) <$> hds) in ret (hds, rs).
Definition multi_inv {V} (cf : cfg V) comp (hds : list addr) (ls : list (list V)) (g : gmap addr (tcell V)) : Prop :=
  exists xss, ls = vals xss /\ length hds = length xss /\ msets_own comp (c_dflt cf) (zip hds xss) g.
Definition multi_held {V} (cf : cfg V) comp := held (multi_inv cf comp).
Definition multi_task_ok {V} (cf : cfg V) comp := task_ok (fun _ => True) (multi_calls cf comp).
Definition multi_rounds {V} (cf : cfg V) comp := rounds (fun _ => True) (multi_calls cf comp) set_deal.
Definition multi_rounds_spec {V} (comp : V -> V -> bool) := rounds_spec (mops_spec comp) (@deal_keeps addr (list V)).

Lemma multi_inv_set V (cf : cfg V) comp hds ls g : multi_inv cf comp hds ls g <-> set_inv cf (wk comp) hds ls g.
Proof. unfold multi_inv, set_inv. by setoid_rewrite msets_own_wk. Qed.
Lemma multi_inv_each V (cf : cfg V) comp hds ls g :
  multi_inv cf comp hds ls g <-> length hds = length ls /\ each (one_set (wk comp) (c_dflt cf)) (zip hds ls) g.
Proof. rewrite multi_inv_set. apply set_inv_each. Qed.
Lemma multi_deal_ok V (cf : cfg V) comp H f ms xs ms' : multi_held cf comp H f ms xs -> set_deal H ms ms' ->
  exists ys, multi_held cf comp H f ms' ys /\ deal_keeps ms.*1 xs ms'.*1 ys.
Proof.
  apply (deal_anew_ok (one_set (wk comp) (c_dflt cf))).
  - intros. apply multi_inv_each.
  - intros. by eapply set_reach_ok.
Qed.
Lemma multi_call_ok V (cf : cfg V) comp ops hds ls g o : swo comp -> multi_inv cf comp hds ls g ->
  runs (multi_calls cf comp ops hds) (World g o None 0 0) (fun r w' => exists ls', mops_spec comp ops ls r.2 ls' /\ multi_inv cf comp r.1 ls' (w_heap w')).
Proof.
  intros Hswo (xss & -> & Hr)%multi_inv_set. unfold multi_calls. rbind. eapply (runs_exec_mops cf comp ops hds xss g ∅); [done|exact Hr| |].
  { split; [simpl; by rewrite (right_id_L ∅ (∪))|apply map_disjoint_empty_r]. }
  intros rs xss' hv' w' Hr' Hh Hs. apply runs_ret. exists (vals xss'). split; [done|]. apply multi_inv_set. exists xss'. split; [done|].
  destruct Hh as [-> _]. rewrite (right_id_L ∅ (∪)). exact Hr'.
Qed.

(** One round: no undefined behaviour under any schedule; when the round has
    ended every thread has got what the specification of its calls gives, and
    the trees are as required for the next round. *)
Theorem C82_multi_round V (cf : cfg V) comp H f ks xs sched : swo comp ->
  Forall (multi_task_ok cf comp) ks -> multi_held cf comp H f ((fun k => (k_st k, k_own k)) <$> ks) xs ->
  exists s', crun sched (begin H ks) = inl s' /\
    forall ls, ended s' ls -> exists ys, multi_held cf comp (cs_mem s') f ((fun l => (l_st l, l_own l)) <$> ls) ys /\
      round_spec (mops_spec comp) (zip (k_call <$> ks) (l_ans <$> ls)) xs ys.
Proof. intros Hswo. apply round_runs. intros. by apply multi_call_ok. Qed.
Print Assumptions C82_multi_round.

Theorem C82_multi_ends V (cf : cfg V) comp H f ks xs sched : swo comp ->
  Forall (multi_task_ok cf comp) ks -> multi_held cf comp H f ((fun k => (k_st k, k_own k)) <$> ks) xs -> fair (length ks) sched ->
  exists n s', crun (sched <$> seq 0 n) (begin H ks) = inl s' /\ forall t, t ∈ cs_thr s' -> exists a, finished t a.
Proof.
  intros Hswo. apply (round_ends (multi_inv cf comp) (fun _ => True) (multi_calls cf comp) (mops_spec comp)). intros. by apply multi_call_ok.
Qed.
Print Assumptions C82_multi_ends.

(** Any number of rounds, in between which the trees are dealt out anew: the
    answers and the contents are those of the specification, every tree shows
    its contents, and destroying all trees leaves the rest of the memory. *)
Theorem C82_multi_rounds V (cf : cfg V) comp H f ms xs tr H2 ms2 : swo comp ->
  multi_held cf comp H f ms xs -> multi_rounds cf comp H ms tr H2 ms2 ->
  exists ys, multi_rounds_spec comp tr xs ys /\ multi_held cf comp H2 f ms2 ys /\
    length (concat ms2.*1) = length (concat ys) /\
    (forall h l, (h, l) ∈ zip (concat ms2.*1) (concat ys) -> mset_shows comp (World H2 [] None 0 0) (TSet (c_dflt cf) h) l) /\
    runs (destroy_sets (TSet (c_dflt cf) <$> concat ms2.*1)) (World H2 [] None 0 0) (fun _ w' => w_heap w' = f).
Proof.
  intros Hswo Hh Hr. eapply (rounds_ok (multi_inv cf comp) _ _ (mops_spec comp) _ deal_keeps) with (f := f) in Hr as (ys & Hh2 & Hs); [|by intros; apply multi_call_ok|intros; by eapply multi_deal_ok|exact Hh].
  exists ys. split; [exact Hs|]. split; [exact Hh2|].
  destruct (held_all (one_set (wk comp) (c_dflt cf)) (multi_inv cf comp) (multi_inv_each V cf comp) _ _ _ _ Hh2) as (g & (xss & Hv & Hr)%multi_inv_set & -> & Hd). rewrite Hv.
  assert (heap_is (World (g ∪ f) [] None 0 0) g f) as Hheap by (by split). split; [unfold vals; rewrite fmap_length; apply Hr|]. split.
  - intros h l [i Hi]%elem_of_list_lookup. apply lookup_zip_with_Some in Hi as (? & ? & [= <- <-] & Hhi & Hl).
    rewrite vals_lookup in Hl. destruct (xss !! i) as [x|] eqn:Ex; [|done]. simplify_eq/=. by eapply mrow_shows.
  - by eapply destroy_sets_spec.
Qed.
Print Assumptions C82_multi_rounds.

(** ** Example: two rounds of two threads, on the trees 12,25,21,28,33,40 and 17,15,50, compared by their tens *)
Definition hm_task (st : list addr) (own : gset addr) (ops : list (mop nat)) (orc : list event) : task :=
  Task st own ops orc (pbind (proj1_sig (st_exec_mops nat _ mcD tens ops (TSet 0 <$> st))) (fun es => PRet (st, es))).
Lemma hm_task_ok st own ops orc : multi_task_ok mcD tens (hm_task st own ops orc).
Proof.
  split; [done|]. intros w. unfold hm_task, multi_calls. simpl. rewrite exec_pbind. unfold bind.
  rewrite (proj1 (proj2_sig (st_exec_mops nat _ mcD tens ops (TSet 0 <$> st)))). done.
Qed.
Definition hm_g1 : gmap addr (tcell nat) := set_heap_of 0 1 mxT1.
Definition hm_round1 : list task :=
  [hm_task [1%positive] (dom hm_g1) [MoInsert 0 (HVal 29); MoEraseKey 0 (HVal 30)] [];
   hm_task [20%positive] (dom mxH2) [MoInsertLower 0 (HVal 14); MoInsert 0 (HVal 8)] [EvOk 1; EvOk 1; EvFail 0]].
Definition hm_s1 := sys_of (crun (round_robin 2000) (begin (hm_g1 ∪ mxH2) hm_round1)).
(** The second round: the first thread gets both trees, the second one none. *)
Definition hm_own1 : gset addr := list_to_set [1; 2; 4; 7; 3; 25; 5; 20; 21; 24; 23; 22]%positive.
Definition hm_round2 : list task :=
  [hm_task [20; 1]%positive hm_own1 [MoEraseKey 1 (HVal 25); MoSwap 0 1; MoCount 1 (HVal 11); MoInsert 0 (HVal 18)] []; hm_task [] ∅ [] []].
Definition hm_s2 := sys_of (crun (round_robin 2000) (begin (cs_mem hm_s1) hm_round2)).
Lemma hm_run1 : crun (round_robin 2000) (begin (hm_g1 ∪ mxH2) hm_round1) = inl hm_s1.
Proof.
  assert (match crun (round_robin 2000) (begin (hm_g1 ∪ mxH2) hm_round1) with inl _ => true | inr _ => false end = true) as Hc by (vm_compute; reflexivity).
  unfold hm_s1. revert Hc. generalize (crun (round_robin 2000) (begin (hm_g1 ∪ mxH2) hm_round1)). intros [s|]; [reflexivity|discriminate].
Qed.
Lemma hm_run2 : crun (round_robin 2000) (begin (cs_mem hm_s1) hm_round2) = inl hm_s2.
Proof.
  assert (match crun (round_robin 2000) (begin (cs_mem hm_s1) hm_round2) with inl _ => true | inr _ => false end = true) as Hc by (vm_compute; reflexivity).
  unfold hm_s2. revert Hc. generalize (crun (round_robin 2000) (begin (cs_mem hm_s1) hm_round2)). intros [s|]; [reflexivity|discriminate].
Qed.
Lemma hm_deal : set_deal (cs_mem hm_s1) ((fun l : rest => (l_st l, l_own l)) <$> (rest_of <$> cs_thr hm_s1)) ((fun k => (k_st k, k_own k)) <$> hm_round2).
Proof.
  assert (forall a, set_reach (cs_mem hm_s1) 20 a <-> a ∈ [20; 21; 24; 23; 22]%positive) as C20.
  { intros a. apply reach_grows; vm_compute; reflexivity. }
  assert (forall a, set_reach (cs_mem hm_s1) 1 a <-> a ∈ [1; 2; 4; 7; 3; 25; 5]%positive) as C1.
  { intros a. apply reach_grows; vm_compute; reflexivity. }
  split.
  { match goal with |- ?x ≡ₚ ?y => assert (x = [1; 20]%positive) as -> by (vm_compute; reflexivity); assert (y = [20; 1]%positive) as -> by (vm_compute; reflexivity) end.
    apply (Permutation_app_comm [1%positive] [20%positive]). }
  revert C1 C20. generalize (cs_mem hm_s1). intros H C1 C20. repeat (apply List.Forall_cons || apply List.Forall_nil); intros a.
  - change (a ∈ hm_own1 <-> exists s, s ∈ [20; 1]%positive /\ set_reach H s a). unfold hm_own1. rewrite elem_of_list_to_set. split.
    + intros Ha. change (a ∈ [1; 2; 4; 7; 3; 25; 5]%positive ++ [20; 21; 24; 23; 22]%positive) in Ha.
      apply elem_of_app in Ha as [Ha|Ha]; [exists 1%positive; split; [right; left|by apply C1]|exists 20%positive; split; [left|by apply C20]].
    + intros (s & [->|[->|[]%elem_of_nil]%elem_of_cons]%elem_of_cons & Hs); [apply C20 in Hs|apply C1 in Hs]; clear -Hs; set_solver.
  - change (a ∈ (∅ : gset addr) <-> exists s, s ∈ ([] : list addr) /\ set_reach H s a). split; [set_solver|]. by intros (s & []%elem_of_nil & _).
Qed.
Example C82_multi_rounds_example :
  swo tens /\
  multi_held mcD tens (hm_g1 ∪ mxH2) ∅ ((fun k => (k_st k, k_own k)) <$> hm_round1) [[mxX.*2]; [mxX2.*2]] /\
  (exists tr ms2, multi_rounds mcD tens (hm_g1 ∪ mxH2) ((fun k => (k_st k, k_own k)) <$> hm_round1) tr (cs_mem hm_s2) ms2 /\
     omap (fun e => match e with Round rd => Some rd | Deal _ _ => None end) tr =
       [zip (k_call <$> hm_round1) (l_ans <$> (rest_of <$> cs_thr hm_s1)); zip (k_call <$> hm_round2) (l_ans <$> (rest_of <$> cs_thr hm_s2))]) /\
  (fun l : rest => fst <$> (l_ans l : list (option error * mans nat))) <$> (rest_of <$> cs_thr hm_s1) = [[None; None]; [None; Some EBadAlloc]] /\
  (fun l : rest => (l_ans l : list (option error * mans nat))) <$> (rest_of <$> cs_thr hm_s2) =
    [[(None, MsNum 4); (None, MsNone); (None, MsNum 3); (None, MsIter (Some 18))]; []] /\
  match (let! a := t_walk (TSet 0 1) in let! b := t_walk (TSet 0 20) in ret [a; b])
    (World (cs_mem hm_s2) [] None 0 0) with Done r _ => Some r | Fault _ => None end = Some [[14; 17; 15; 50]; [12; 18; 40]].
Proof.
  split; [apply tens_swo|]. split; [|split; [|split_and!; vm_compute; reflexivity]].
  - exists [hm_g1; mxH2]. pose proof mx_disj as Hd. fold hm_g1 in Hd.
    split; [|split; [done|split; [done|split]]].
    + split; [apply map_empty_subseteq|]. split.
      * intros g Hg. split; [|apply map_disjoint_empty_l]. apply elem_of_cons in Hg as [->|[->|[]%elem_of_nil]%elem_of_cons];
          [apply map_union_subseteq_l|by apply map_union_subseteq_r].
      * intros a [c Hc]. right. apply lookup_union_Some in Hc as [Hc|Hc]; [exists hm_g1|exists mxH2|done]; (split; [set_solver|by exists c]).
    + intros [|[|i]] [|[|k]] g g' Hne Hi Hk; simpl in *; simplify_eq; done.
    + intros [|[|i]] m x g Hm Hx Hg; [injection Hm as <-; injection Hx as <-; injection Hg as <-..|done]; (split; [done|]).
      * exists [mxX]. split; [done|]. split; [done|]. exists hm_g1, ∅. split_and!; [by rewrite (right_id_L ∅ (∪))|apply map_disjoint_empty_r| |done].
        apply mset_own_set, good_own. by vm_compute.
      * exists [mxX2]. split; [done|]. split; [done|]. exists mxH2, ∅. split_and!; [by rewrite (right_id_L ∅ (∪))|apply map_disjoint_empty_r|apply mx_own2|done].
  - eexists _, _. split.
    + eapply rounds_round; [|exact hm_run1|apply ended_by; vm_compute; reflexivity|].
      { repeat (apply List.Forall_cons || apply List.Forall_nil); apply hm_task_ok. }
      eapply rounds_deal; [exact hm_deal|].
      eapply rounds_round; [|exact hm_run2|apply ended_by; vm_compute; reflexivity|apply rounds_nil].
      repeat (apply List.Forall_cons || apply List.Forall_nil); apply hm_task_ok.
    + reflexivity.
Qed.
