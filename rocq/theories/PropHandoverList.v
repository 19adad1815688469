(** * Property C82: containers handed from thread to thread; lists

    Vocabulary: Handover.v. *)
From Verif Require Import ListExtra PropList ConcList PropConc PropConcList Handover.

(** The threads have lists, given by their headers, and make calls on them. *)
Definition list_calls {V} (cf : cfg V) comp (ops : list (lop V)) (hds : list addr) : M (lcell V) (list addr * list (option error)) :=
  let! es := exec_lops cf comp ops (Lst (c_dflt cf) <$> hds) in ret (hds, es).
Definition list_inv {V} (cf : cfg V) (hds : list addr) (ls : list (list V)) (g : gmap addr (lcell V)) : Prop :=
  exists xss, ls = vals xss /\ length hds = length xss /\ lists_own (c_dflt cf) (zip hds xss) g.
Definition list_held {V} (cf : cfg V) := held (list_inv cf).
Definition list_task_ok {V} (cf : cfg V) comp := task_ok (fun _ => True) (list_calls cf comp).
(** What can be reached from a list, going from node to node. *)
Definition list_reach {V} (H : gmap addr (lcell V)) (h a : addr) : Prop := rtc (fun x y => nx H x = Some y) h a.
Definition list_deal {V} := deal_anew (@list_reach V).
Definition list_rounds {V} (cf : cfg V) comp := rounds (fun _ => True) (list_calls cf comp) list_deal.
Definition list_rounds_spec {V} (comp : V -> V -> bool) := rounds_spec (lops_spec comp) (@deal_keeps addr (list V)).

Section deal.
  Context {V : Type} (al : alloc_id).
  Notation H := (gmap addr (lcell V)).
  Definition one_list (h : addr) (l : list V) (g : H) : Prop := exists xs, l = xs.*2 /\ lists_own al [(h, xs)] g.

  Lemma chain_ext (g g' : H) a l b : (forall x, x ∈ a :: b :: l -> g' !! x = g !! x) -> chain g a l b -> chain g' a l b.
  Proof.
    revert a. induction l as [|x l IH]; intros a He; simpl.
    - unfold link, nx, pv. intros [H1 H2]. rewrite !He by set_solver. done.
    - intros [[H1 H2] Hc]. split; [unfold link, nx, pv; rewrite !He by set_solver; done|]. apply IH; [|done]. intros y Hy. apply He. set_solver.
  Qed.
  Lemma shape_ext (g g' : H) h xs : (forall x, x ∈ h :: xs.*1 -> g' !! x = g !! x) -> list_shape al g h xs -> list_shape al g' h xs.
  Proof.
    intros He (Hc & Hh & Hb). split_and!.
    - eapply chain_ext; [|exact Hc]. intros x Hx. apply He. set_solver.
    - unfold bd. rewrite He by set_solver. exact Hh.
    - intros a v Hin. unfold bd. rewrite He; [by apply Hb|]. right. apply elem_of_list_fmap. by exists (a, v).
  Qed.
  Lemma own_cons h xs R (g : H) :
    lists_own al ((h, xs) :: R) g <-> exists g1 g2, lists_own al [(h, xs)] g1 /\ lists_own al R g2 /\ g1 ##ₘ g2 /\ g = g1 ∪ g2.
  Proof.
    split.
    - intros (Hn & Hd & Hs). change (list_addrs ((h, xs) :: R)) with ((h :: xs.*1) ++ list_addrs R) in *.
      apply NoDup_app in Hn as (Hn1 & Hn2 & Hn3).
      set (g1 := filter (fun p : addr * lcell V => p.1 ∈ h :: xs.*1) g). set (g2 := filter (fun p : addr * lcell V => p.1 ∉ h :: xs.*1) g).
      assert (forall x, x ∈ h :: xs.*1 -> g1 !! x = g !! x) as E1.
      { intros x Hx. unfold g1. rewrite map_filter_lookup. destruct (g !! x); simpl; [|done]. by rewrite option_guard_True. }
      assert (forall x, x ∉ h :: xs.*1 -> g2 !! x = g !! x) as E2.
      { intros x Hx. unfold g2. rewrite map_filter_lookup. destruct (g !! x); simpl; [|done]. by rewrite option_guard_True. }
      assert (forall x, x ∉ h :: xs.*1 -> g1 !! x = None) as N1.
      { intros x Hx. unfold g1. rewrite map_filter_lookup. destruct (g !! x); simpl; [|done]. by rewrite option_guard_False. }
      assert (forall x, x ∈ h :: xs.*1 -> g2 !! x = None) as N2.
      { intros x Hx. unfold g2. rewrite map_filter_lookup. destruct (g !! x); simpl; [|done]. rewrite option_guard_False; [done|]. intros Hn. by apply Hn. }
      exists g1, g2. split_and!.
      + split; [|split].
        * unfold list_addrs. simpl. by rewrite app_nil_r.
        * intros a. unfold list_addrs. simpl. rewrite app_nil_r. destruct (decide (a ∈ h :: xs.*1)) as [Ha|Ha].
          -- rewrite E1, Hd by done. split; [done|]. intros _. apply elem_of_app. by left.
          -- rewrite N1 by done. split; [by intros [? ?]|done].
        * intros hdr ys Hin. apply elem_of_list_singleton in Hin. injection Hin as -> ->. eapply shape_ext; [exact E1|]. apply Hs. left.
      + split; [done|]. split.
        * intros a. destruct (decide (a ∈ h :: xs.*1)) as [Ha|Ha].
          -- rewrite N2 by done. split; [by intros [? ?]|]. intros Hr. by destruct (Hn2 a Ha).
          -- rewrite E2, Hd by done. rewrite elem_of_app. split; [|by right]. by intros [?|?].
        * intros hdr ys Hin. eapply shape_ext; [|apply Hs; by right]. intros x Hx. apply E2. intros Hc. apply (Hn2 x Hc).
          apply elem_of_list_In, in_concat. exists (hdr :: ys.*1). split; [|by apply elem_of_list_In]. apply (in_map (fun l => l.1 :: l.2.*1) R (hdr, ys)). by apply elem_of_list_In.
      + apply map_disjoint_spec. intros x c1 c2 H1 H2. destruct (decide (x ∈ h :: xs.*1)) as [Hx|Hx]; [by rewrite N2 in H2|by rewrite N1 in H1].
      + apply map_eq. intros x. destruct (decide (x ∈ h :: xs.*1)) as [Hx|Hx].
        * rewrite lookup_union_l by auto. by rewrite E1.
        * rewrite lookup_union_r by auto. by rewrite E2.
    - intros (g1 & g2 & (Hn1 & Hd1 & Hs1) & (Hn2 & Hd2 & Hs2) & Hd & ->).
      unfold list_addrs in Hn1, Hd1. simpl in Hn1, Hd1. rewrite app_nil_r in Hn1. setoid_rewrite app_nil_r in Hd1.
      change (list_addrs ((h, xs) :: R)) with ((h :: xs.*1) ++ list_addrs R). split; [|split].
      + apply NoDup_app. split_and!; [done| |done]. intros x H1%Hd1 H2%Hd2. destruct H1 as [c1 H1], H2 as [c2 H2].
        rewrite map_disjoint_spec in Hd. eauto.
      + intros a. change (list_addrs ((h, xs) :: R)) with ((h :: xs.*1) ++ list_addrs R). rewrite elem_of_app, <-Hd1, <-Hd2. split.
        * intros [c Hc]. apply lookup_union_Some in Hc as [Hc|Hc]; [left; by exists c|right; by exists c|done].
        * intros [[c Hc]|[c Hc]]; exists c; apply lookup_union_Some; auto.
      + intros hdr ys [[= -> ->]|Hin]%elem_of_cons.
        * eapply shape_ext; [|apply Hs1; left]. intros x Hx. apply Hd1 in Hx as [c Hc]. rewrite Hc. by apply lookup_union_Some_l.
        * eapply shape_ext; [|by apply Hs2]. intros x Hx. assert (is_Some (g2 !! x)) as [c Hc].
          { apply Hd2, elem_of_list_In, in_concat. exists (hdr :: ys.*1). split; [|by apply elem_of_list_In]. apply (in_map (fun l => l.1 :: l.2.*1) R (hdr, ys)). by apply elem_of_list_In. }
          rewrite Hc. by apply lookup_union_Some_r.
  Qed.
  Lemma own_each hds xss (g : H) : length hds = length xss -> lists_own al (zip hds xss) g -> each one_list (zip hds (vals xss)) g.
  Proof.
    revert xss g. induction hds as [|h hds IH]; intros [|xs xss] g Hl; simpl in *; try done.
    - intros (_ & Hd & _). apply map_eq. intros a. rewrite lookup_empty. apply eq_None_not_Some. rewrite Hd. apply not_elem_of_nil.
    - intros (g1 & g2 & H1 & H2 & Hd & ->)%own_cons. exists g1, g2. split_and!; [by exists xs|apply IH; [lia|done]|done..].
  Qed.
  Lemma each_own hds ls (g : H) : length hds = length ls -> each one_list (zip hds ls) g ->
    exists xss, ls = vals xss /\ length hds = length xss /\ lists_own al (zip hds xss) g.
  Proof.
    revert ls g. induction hds as [|h hds IH]; intros [|l ls] g Hl; simpl in *; try done.
    - intros ->. exists []. split_and!; [done..|apply own_empty].
    - intros (g1 & g2 & (xs & -> & H1) & H2 & Hd & ->). destruct (IH ls g2) as (xss & -> & Hl' & H3); [lia|done|].
      exists (xs :: xss). split_and!; [done|simpl; lia|]. simpl. apply own_cons. by exists g1, g2.
  Qed.

  Lemma chain_reach (h : H) a l b x : chain h a l b -> x ∈ l -> rtc (fun x y => nx h x = Some y) a x.
  Proof.
    revert a. induction l as [|y l IH]; intros a Hc Hx; [by apply elem_of_nil in Hx|]. destruct Hc as [[Hn _] Hc].
    eapply rtc_l; [exact Hn|]. apply elem_of_cons in Hx as [->|Hx]; [done|]. by apply IH.
  Qed.
  Lemma chain_closed (h : H) a l b x y : chain h a l b -> x ∈ a :: l -> nx h x = Some y -> y ∈ b :: l.
  Proof.
    revert a. induction l as [|z l IH]; intros a Hc Hx Hn; simpl in Hc.
    - apply elem_of_list_singleton in Hx as ->. destruct Hc as [Hc _]. rewrite Hc in Hn. injection Hn as ->. left.
    - destruct Hc as [[Hz _] Hc]. apply elem_of_cons in Hx as [->|Hx].
      + rewrite Hz in Hn. injection Hn as ->. right. left.
      + specialize (IH z Hc Hx Hn). set_solver.
  Qed.
  Lemma list_reach_ok (h : H) hdr l g a : one_list hdr l g -> g ⊆ h -> list_reach h hdr a <-> a ∈ dom g.
  Proof.
    intros (xs & _ & (Hn & Hd & Hs)) Hsub. destruct (Hs hdr xs) as (Hc & _ & _); [left|].
    unfold list_addrs in Hd. simpl in Hd. setoid_rewrite app_nil_r in Hd. rewrite elem_of_dom, Hd.
    assert (chain h hdr xs.*1 hdr) as Hch.
    { eapply chain_ext; [|exact Hc]. intros x Hx. assert (is_Some (g !! x)) as [c E] by (apply Hd; set_solver). rewrite E. by eapply lookup_weaken. }
    split.
    - intros Hr. remember hdr as s eqn:Es in Hr. assert (s ∈ hdr :: xs.*1) as Hin by (subst; left). clear Es. induction Hr as [x|x y z Hxy _ IH]; [done|].
      apply IH. by eapply chain_closed.
    - intros [->|Ha]%elem_of_cons; [apply rtc_refl|]. by eapply chain_reach.
  Qed.
End deal.
Lemma list_inv_each V (cf : cfg V) hds ls g : list_inv cf hds ls g <-> length hds = length ls /\ each (one_list (c_dflt cf)) (zip hds ls) g.
Proof.
  split.
  - intros (xss & -> & Hl & Ho). split; [unfold vals; by rewrite fmap_length|by apply own_each].
  - intros [Hl He]. by apply each_own.
Qed.
Lemma list_deal_ok V (cf : cfg V) H f ms xs ms' : list_held cf H f ms xs -> list_deal H ms ms' ->
  exists ys, list_held cf H f ms' ys /\ deal_keeps ms.*1 xs ms'.*1 ys.
Proof.
  apply (deal_anew_ok (one_list (c_dflt cf))).
  - intros. apply list_inv_each.
  - intros. by eapply list_reach_ok.
Qed.

Lemma list_call_ok V (cf : cfg V) comp ops hds ls g o : list_inv cf hds ls g ->
  runs (list_calls cf comp ops hds) (World g o None 0 0) (fun r w' => exists ls', lops_spec comp ops ls r.2 ls' /\ list_inv cf r.1 ls' (w_heap w')).
Proof.
  intros (xss & -> & Hr). unfold list_calls. rbind. eapply (runs_exec_lops cf comp ops hds xss g ∅); [exact Hr| |].
  { split; [simpl; by rewrite (right_id_L ∅ (∪))|apply map_disjoint_empty_r]. }
  intros es xss' hv' w' Hr' Hh Hs. apply runs_ret. exists (vals xss'). split; [done|]. exists xss'. split; [done|].
  destruct Hh as [-> _]. rewrite (right_id_L ∅ (∪)). exact Hr'.
Qed.

(** One round: no undefined behaviour under any schedule; when the round has
    ended every thread has got what the specification of its calls gives, and
    the lists are as required for the next round. *)
Theorem C82_list_round V (cf : cfg V) comp H f ks xs sched :
  Forall (list_task_ok cf comp) ks -> list_held cf H f ((fun k => (k_st k, k_own k)) <$> ks) xs ->
  exists s', crun sched (begin H ks) = inl s' /\
    forall ls, ended s' ls -> exists ys, list_held cf (cs_mem s') f ((fun l => (l_st l, l_own l)) <$> ls) ys /\
      round_spec (lops_spec comp) (zip (k_call <$> ks) (l_ans <$> ls)) xs ys.
Proof. apply round_runs. intros. by apply list_call_ok. Qed.
Print Assumptions C82_list_round.

Theorem C82_list_ends V (cf : cfg V) comp H f ks xs sched :
  Forall (list_task_ok cf comp) ks -> list_held cf H f ((fun k => (k_st k, k_own k)) <$> ks) xs -> fair (length ks) sched ->
  exists n s', crun (sched <$> seq 0 n) (begin H ks) = inl s' /\ forall t, t ∈ cs_thr s' -> exists a, finished t a.
Proof.
  apply (round_ends (list_inv cf) (fun _ => True) (list_calls cf comp) (lops_spec comp)). intros. by apply list_call_ok.
Qed.
Print Assumptions C82_list_ends.

(** Any number of rounds, in between which the lists are dealt out anew: the
    answers and the contents are those of the specification, every list shows
    its contents, and destroying all lists leaves the rest of the memory. *)
Theorem C82_list_rounds V (cf : cfg V) comp H f ms xs tr H2 ms2 :
  list_held cf H f ms xs -> list_rounds cf comp H ms tr H2 ms2 ->
  exists ys, list_rounds_spec comp tr xs ys /\ list_held cf H2 f ms2 ys /\
    length (concat ms2.*1) = length (concat ys) /\
    (forall h l, (h, l) ∈ zip (concat ms2.*1) (concat ys) -> lst_shows cf (World H2 [] None 0 0) (Lst (c_dflt cf) h) l) /\
    runs (destroy_lists (Lst (c_dflt cf) <$> concat ms2.*1)) (World H2 [] None 0 0) (fun _ w' => w_heap w' = f).
Proof.
  intros Hh Hr. eapply (rounds_ok (list_inv cf) _ _ (lops_spec comp) _ deal_keeps) with (f := f) in Hr as (ys & Hh2 & Hs); [|by intros; apply list_call_ok|intros; by eapply list_deal_ok|exact Hh].
  exists ys. split; [exact Hs|]. split; [exact Hh2|].
  destruct (held_all (one_list (c_dflt cf)) (list_inv cf) (list_inv_each V cf) _ _ _ _ Hh2) as (g & (xss & Hv & Hr) & -> & Hd). rewrite Hv.
  assert (heap_is (World (g ∪ f) [] None 0 0) g f) as Hheap by (by split). split; [unfold vals; rewrite fmap_length; apply Hr|]. split.
  - intros h l [i Hi]%elem_of_list_lookup. apply lookup_zip_with_Some in Hi as (? & ? & [= <- <-] & Hhi & Hl).
    rewrite vals_lookup in Hl. destruct (xss !! i) as [x|] eqn:Ex; [|done]. simplify_eq/=. by eapply row_shows.
  - by eapply runs_destroy_row.
Qed.
Print Assumptions C82_list_rounds.

(** ** Example: two rounds of two threads *)
Definition hl_task (st : list addr) (own : gset addr) (ops : list (lop nat)) (orc : list event) : task :=
  Task st own ops orc (pbind (proj1_sig (st_exec_lops nat lcD Nat.ltb ops (Lst 0 <$> st))) (fun es => PRet (st, es))).
Lemma hl_task_ok st own ops orc : list_task_ok lcD Nat.ltb (hl_task st own ops orc).
Proof.
  split; [done|]. intros w. unfold hl_task, list_calls. simpl. rewrite exec_pbind. unfold bind.
  rewrite (proj1 (proj2_sig (st_exec_lops nat lcD Nat.ltb ops (Lst 0 <$> st)))). done.
Qed.
Definition hl_g1 : gmap addr (lcell nat) := lists_heap 0 [(1%positive, []); (2%positive, [])].
Definition hl_g2 : gmap addr (lcell nat) := lists_heap 0 [(3%positive, [])].
Definition hl_round1 : list task :=
  [hl_task [1%positive; 2%positive] (dom hl_g1) [LoPushBack 0 (HVal 3); LoPushFront 0 (HVal 1); LoPushBack 1 (HVal 2)] [];
   hl_task [3%positive] (dom hl_g2) [LoPushBack 0 (HVal 9); LoPushBack 0 (HVal 8)] [EvOk 1; EvOk 1; EvFail 0]].
Definition hl_s1 := sys_of (crun (round_robin 1000) (begin (hl_g1 ∪ hl_g2) hl_round1)).
(** The second round: the first thread gets the lists 3 and 1, the second one 2. *)
Definition hl_own1 : gset addr := list_to_set [3; 5; 1; 6; 4]%positive.
Definition hl_own2 : gset addr := list_to_set [2; 7]%positive.
Definition hl_round2 : list task :=
  [hl_task [3; 1]%positive hl_own1 [LoMerge 1 0] []; hl_task [2%positive] hl_own2 [LoPushBack 0 (HVal 5); LoPushBack 0 (HVal 1); LoSort 0] []].
Definition hl_s2 := sys_of (crun (round_robin 4800) (begin (cs_mem hl_s1) hl_round2)).

Lemma hl_run1 : crun (round_robin 1000) (begin (hl_g1 ∪ hl_g2) hl_round1) = inl hl_s1.
Proof.
  assert (match crun (round_robin 1000) (begin (hl_g1 ∪ hl_g2) hl_round1) with inl _ => true | inr _ => false end = true) as Hc by (vm_compute; reflexivity).
  unfold hl_s1. revert Hc. generalize (crun (round_robin 1000) (begin (hl_g1 ∪ hl_g2) hl_round1)). intros [s|]; [reflexivity|discriminate].
Qed.
Lemma hl_run2 : crun (round_robin 4800) (begin (cs_mem hl_s1) hl_round2) = inl hl_s2.
Proof.
  assert (match crun (round_robin 4800) (begin (cs_mem hl_s1) hl_round2) with inl _ => true | inr _ => false end = true) as Hc by (vm_compute; reflexivity).
  unfold hl_s2. revert Hc. generalize (crun (round_robin 4800) (begin (cs_mem hl_s1) hl_round2)). intros [s|]; [reflexivity|discriminate].
Qed.

Lemma reach_chain (H : gmap addr (lcell nat)) h l a : chain_b H h l h = true -> list_reach H h a <-> a ∈ h :: l.
Proof.
  intros Hc%chain_b_sound. split.
  - intros Hr. remember h as s eqn:Es in Hr. assert (s ∈ h :: l) as Hin by (subst; left). clear Es. induction Hr as [x|x y z Hxy _ IH]; [done|].
    apply IH. by eapply chain_closed.
  - intros [->|Ha]%elem_of_cons; [apply rtc_refl|]. by eapply chain_reach.
Qed.
Lemma hl_deal : list_deal (cs_mem hl_s1) ((fun l : rest => (l_st l, l_own l)) <$> (rest_of <$> cs_thr hl_s1)) ((fun k => (k_st k, k_own k)) <$> hl_round2).
Proof.
  assert (chain_b (cs_mem hl_s1) 3 [5]%positive 3 = true) as C3 by (vm_compute; reflexivity).
  assert (chain_b (cs_mem hl_s1) 1 [6; 4]%positive 1 = true) as C1 by (vm_compute; reflexivity).
  assert (chain_b (cs_mem hl_s1) 2 [7]%positive 2 = true) as C2 by (vm_compute; reflexivity).
  split.
  { match goal with |- ?x ≡ₚ ?y => assert (x = [1; 2; 3]%positive) as -> by (vm_compute; reflexivity); assert (y = [3; 1; 2]%positive) as -> by (vm_compute; reflexivity) end.
    apply (Permutation_app_comm [1; 2]%positive [3%positive]). }
  revert C1 C2 C3. generalize (cs_mem hl_s1). intros H C1 C2 C3. repeat (apply List.Forall_cons || apply List.Forall_nil); intros a.
  - change (a ∈ hl_own1 <-> exists s, s ∈ [3; 1]%positive /\ list_reach H s a). unfold hl_own1. rewrite elem_of_list_to_set. split.
    + intros Ha. change (a ∈ [3%positive; 5%positive] ++ [1%positive; 6%positive; 4%positive]) in Ha. apply elem_of_app in Ha as [Ha|Ha]; [exists 3%positive|exists 1%positive]; (split; [set_solver|]); by eapply reach_chain.
    + intros (s & [->|[->|[]%elem_of_nil]%elem_of_cons]%elem_of_cons & Hs); [apply (reach_chain _ _ _ _ C3) in Hs|apply (reach_chain _ _ _ _ C1) in Hs]; clear -Hs; set_solver.
  - change (a ∈ hl_own2 <-> exists s, s ∈ [2%positive] /\ list_reach H s a). unfold hl_own2. rewrite elem_of_list_to_set. split.
    + intros Ha. exists 2%positive. split; [set_solver|]. by eapply reach_chain.
    + intros (s & [->|[]%elem_of_nil]%elem_of_cons & Hs). apply (reach_chain _ _ _ _ C2) in Hs. done.
Qed.
Example C82_list_rounds_example :
  list_held lcD (hl_g1 ∪ hl_g2) ∅ ((fun k => (k_st k, k_own k)) <$> hl_round1) [[[]; []]; [[]]] /\
  (exists tr ms2, list_rounds lcD Nat.ltb (hl_g1 ∪ hl_g2) ((fun k => (k_st k, k_own k)) <$> hl_round1) tr (cs_mem hl_s2) ms2 /\
     omap (fun e => match e with Round rd => Some rd | Deal _ _ => None end) tr =
       [zip (k_call <$> hl_round1) [[None; None; None]; [None; Some EBadAlloc]]; zip (k_call <$> hl_round2) [[None]; [None; None; None]]]) /\
  match (let! a := lst_walk lcD (Lst 0 1) in let! b := lst_walk lcD (Lst 0 2) in let! c := lst_walk lcD (Lst 0 3) in ret [a; b; c])
    (World (cs_mem hl_s2) [] None 0 0) with Done r _ => Some r | Fault _ => None end = Some [[1; 3; 9]; [1; 2; 5]; []].
Proof.
  split; [|split; [|vm_compute; reflexivity]].
  - exists [hl_g1; hl_g2]. assert (hl_g1 ##ₘ hl_g2) as Hd.
    { apply map_disjoint_dom. apply (bool_decide_eq_true_1 (dom hl_g1 ## dom hl_g2)). by vm_compute. }
    split; [|split; [done|split; [done|split]]].
    + split; [apply map_empty_subseteq|]. split.
      * intros g Hg. split; [|apply map_disjoint_empty_l]. apply elem_of_cons in Hg as [->|[->|[]%elem_of_nil]%elem_of_cons];
          [apply map_union_subseteq_l|by apply map_union_subseteq_r].
      * intros a [c Hc]. right. apply lookup_union_Some in Hc as [Hc|Hc]; [exists hl_g1|exists hl_g2|done]; (split; [set_solver|by exists c]).
    + intros [|[|i]] [|[|k]] g g' Hne Hi Hk; simpl in *; simplify_eq; done.
    + intros [|[|i]] m x g Hm Hx Hg; simpl in Hm, Hx, Hg; simplify_eq; (split; [done|]); [exists [[]; []]|exists [[]]]; (split; [done|]; split; [done|]);
        apply own_b_sound; by vm_compute.
  - assert (l_ans <$> (rest_of <$> cs_thr hl_s1) = [[None; None; None]; [None; Some EBadAlloc]]) as E1 by (vm_compute; reflexivity).
    assert (l_ans <$> (rest_of <$> cs_thr hl_s2) = [[None]; [None; None; None]]) as E2 by (vm_compute; reflexivity).
    eexists _, _. split.
    + eapply rounds_round; [|exact hl_run1|apply ended_by; vm_compute; reflexivity|].
      { repeat (apply List.Forall_cons || apply List.Forall_nil); apply hl_task_ok. }
      eapply rounds_deal; [exact hl_deal|].
      eapply rounds_round; [|exact hl_run2|apply ended_by; vm_compute; reflexivity|apply rounds_nil].
      repeat (apply List.Forall_cons || apply List.Forall_nil); apply hl_task_ok.
    + rewrite E1, E2. reflexivity.
Qed.
