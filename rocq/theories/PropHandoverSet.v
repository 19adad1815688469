(** * Property C82: containers handed from thread to thread; sets

    Vocabulary: Handover.v. *)
From Verif Require Import RbExtra RbMultiHist RoundsSpec PropSet PropMulti PropMultiHist PropRounds ConcMulti PropConc PropConcSet Handover.

(** The threads have sets, given by their headers, and make calls on them. *)
Definition set_calls {V} (cf : cfg V) comp (ops : list (sop V)) (hds : list addr) : M (tcell V) (list addr * list (option error * sans V)) :=
  let! rs := exec_sops cf comp ops (TSet (c_dflt cf) <$> hds) in ret (hds, rs).
Definition set_inv {V} (cf : cfg V) comp (hds : list addr) (ls : list (list V)) (g : gmap addr (tcell V)) : Prop :=
  exists xss, ls = vals xss /\ length hds = length xss /\ sets_own comp (c_dflt cf) (zip hds xss) g.
Definition set_held {V} (cf : cfg V) comp := held (set_inv cf comp).
Definition set_task_ok {V} (cf : cfg V) comp := task_ok (fun _ => True) (set_calls cf comp).
(** What can be reached from a set, going from node to node. *)
Definition links {V} (H : gmap addr (tcell V)) (x : addr) : list addr :=
  match H !! x with Some c => omap (fun p => p ≫= id) [tn_parent c; tn_left c; tn_right c] | None => [] end.
Definition set_reach {V} (H : gmap addr (tcell V)) (h a : addr) : Prop := rtc (fun x y => y ∈ links H x) h a.
Definition set_deal {V} := deal_anew (@set_reach V).
Definition set_rounds {V} (cf : cfg V) comp := rounds (fun _ => True) (set_calls cf comp) set_deal.
Definition set_rounds_spec {V} (comp : V -> V -> bool) := rounds_spec (sops_spec comp) (@deal_keeps addr (list V)).

Section deal.
  Context {V : Type} (comp : V -> V -> bool) (al : alloc_id).
  Notation H := (gmap addr (tcell V)).
  Definition one_set (h : addr) (l : list V) (g : H) : Prop := exists xs, l = xs.*2 /\ set_own comp al h xs g.
  Lemma own_each hds xss (g : H) : length hds = length xss -> sets_own comp al (zip hds xss) g -> each one_set (zip hds (vals xss)) g.
  Proof.
    revert xss g. induction hds as [|h hds IH]; intros [|xs xss] g Hl; simpl in *; try done.
    intros (g1 & g2 & -> & Hd & H1 & H2). exists g1, g2. split_and!; [by exists xs|apply IH; [lia|done]|done..].
  Qed.
  Lemma each_own hds ls (g : H) : length hds = length ls -> each one_set (zip hds ls) g ->
    exists xss, ls = vals xss /\ length hds = length xss /\ sets_own comp al (zip hds xss) g.
  Proof.
    revert ls g. induction hds as [|h hds IH]; intros [|l ls] g Hl; simpl in *; try done.
    - intros ->. by exists [].
    - intros (g1 & g2 & (xs & -> & H1) & H2 & Hd & ->). destruct (IH ls g2) as (xss & -> & Hl' & H3); [lia|done|].
      exists (xs :: xss). split_and!; [done|simpl; lia|]. simpl. by exists g1, g2.
  Qed.

  Lemma tree_reach (h : H) p t x a : tree_at al h p t -> root t = Some x -> a ∈ (elems t).*1 -> set_reach h x a.
  Proof.
    revert p x. induction t as [|c b v l IHl r IHr]; intros p x; [done|]. simpl. intros (Hb & Hl & Hr) [= ->] Ha.
    rewrite fmap_app in Ha. apply elem_of_app in Ha as [Ha|[->|Ha]%elem_of_cons]; [|apply rtc_refl|].
    - destruct (root l) as [y|] eqn:E; [|by destruct l; [apply elem_of_nil in Ha|]].
      eapply rtc_l; [|by eapply IHl]. unfold links. rewrite Hb. simpl. set_solver.
    - destruct (root r) as [y|] eqn:E; [|by destruct r; [apply elem_of_nil in Ha|]].
      eapply rtc_l; [|by eapply IHr]. unfold links. rewrite Hb. simpl. destruct (root l); simpl; set_solver.
  Qed.
  Lemma root_in (t : tree V) x : root t = Some x -> x ∈ (elems t).*1.
  Proof. apply right_child_in. Qed.
  Lemma tree_closed (h : H) p t x y : tree_at al h p t -> x ∈ (elems t).*1 -> y ∈ links h x -> y = p \/ y ∈ (elems t).*1.
  Proof.
    revert p. induction t as [|c b v l IHl r IHr]; intros p; simpl; [by intros _ ?%elem_of_nil|]. intros (Hb & Hl & Hr) Hx Hy. rewrite fmap_app in *.
    apply elem_of_app in Hx as [Hx|[Hx|Hx]%elem_of_cons].
    - destruct (IHl b Hl Hx Hy) as [->|?]; right; simpl; set_solver.
    - simpl in Hx. subst x. unfold links in Hy. rewrite Hb in Hy. simpl in Hy. apply elem_of_cons in Hy as [->|Hy]; [by left|right].
      destruct (root l) as [z|] eqn:El; destruct (root r) as [z'|] eqn:Er; simpl in Hy;
        repeat (apply elem_of_cons in Hy as [->|Hy]); try (by apply elem_of_nil in Hy); simpl;
        (apply root_in in El || idtac); (apply root_in in Er || idtac); set_solver.
    - destruct (IHr b Hr Hx Hy) as [->|?]; right; simpl; set_solver.
  Qed.
  Lemma set_reach_ok (h : H) hdr l g a : one_set hdr l g -> g ⊆ h -> set_reach h hdr a <-> a ∈ dom g.
  Proof.
    intros (xs & _ & _ & t & He & Hh & Ht & Hn & Hd & Hrb) Hsub. rewrite elem_of_dom, Hd.
    assert (forall x, x ∈ hdr :: (elems t).*1 -> h !! x = g !! x) as Hx.
    { intros x Hx. apply Hd in Hx as [c E]. rewrite E. by eapply lookup_weaken. }
    assert (h !! hdr = g !! hdr) as Hhh by (apply Hx; left). rewrite Hh in Hhh.
    assert (tree_at al h hdr t) as Hth by (eapply tat_ext; [|exact Ht]; intros x Hx'; apply Hx; by right).
    assert (first_of hdr (elems t) ∈ hdr :: (elems t).*1 /\ last_of hdr (elems t) ∈ hdr :: (elems t).*1) as [Hf Hl].
    { unfold first_of, last_of. split.
      - destruct (elems t) as [|[b v] X]; simpl; set_solver.
      - destruct (last (elems t).*1) as [b|] eqn:E; simpl; [|set_solver]. right. rewrite last_lookup in E. by eapply elem_of_list_lookup_2. }
    split.
    - intros Hr. remember hdr as s eqn:Es in Hr. assert (s ∈ hdr :: (elems t).*1) as Hin by (subst; left). clear Es.
      induction Hr as [x|x y z Hxy _ IH]; [done|]. apply IH. apply elem_of_cons in Hin as [->|Hin].
      + unfold links in Hxy. rewrite Hhh in Hxy. simpl in Hxy.
        destruct (root t) as [r|] eqn:E; [apply root_in in E|]; simpl in Hxy; set_solver.
      + destruct (tree_closed _ _ _ _ _ Hth Hin Hxy) as [->|?]; set_solver.
    - intros [->|Ha]%elem_of_cons; [apply rtc_refl|].
      destruct (root t) as [r|] eqn:E; [|by destruct t; [apply elem_of_nil in Ha|]].
      eapply rtc_l; [|by eapply tree_reach]. unfold links. rewrite Hhh. simpl. set_solver.
  Qed.
End deal.
Lemma set_inv_each V (cf : cfg V) comp hds ls g : set_inv cf comp hds ls g <-> length hds = length ls /\ each (one_set comp (c_dflt cf)) (zip hds ls) g.
Proof.
  split.
  - intros (xss & -> & Hl & Ho). split; [unfold vals; by rewrite fmap_length|by apply own_each].
  - intros [Hl He]. by apply each_own.
Qed.
Lemma set_deal_ok V (cf : cfg V) comp H f ms xs ms' : set_held cf comp H f ms xs -> set_deal H ms ms' ->
  exists ys, set_held cf comp H f ms' ys /\ deal_keeps ms.*1 xs ms'.*1 ys.
Proof.
  apply (deal_anew_ok (one_set comp (c_dflt cf))).
  - intros. apply set_inv_each.
  - intros. by eapply set_reach_ok.
Qed.

Lemma set_call_ok V (cf : cfg V) comp ops hds ls g o : swo comp -> set_inv cf comp hds ls g ->
  runs (set_calls cf comp ops hds) (World g o None 0 0) (fun r w' => exists ls', sops_spec comp ops ls r.2 ls' /\ set_inv cf comp r.1 ls' (w_heap w')).
Proof.
  intros Hswo (xss & -> & Hr). unfold set_calls. rbind. eapply (runs_exec_sops cf comp ops hds xss g ∅); [done|exact Hr| |].
  { split; [simpl; by rewrite (right_id_L ∅ (∪))|apply map_disjoint_empty_r]. }
  intros rs xss' hv' w' Hr' Hh Hs. apply runs_ret. exists (vals xss'). split; [done|]. exists xss'. split; [done|].
  destruct Hh as [-> _]. rewrite (right_id_L ∅ (∪)). exact Hr'.
Qed.

(** One round: no undefined behaviour under any schedule; when the round has
    ended every thread has got what the specification of its calls gives, and
    the sets are as required for the next round. *)
Theorem C82_set_round V (cf : cfg V) comp H f ks xs sched : swo comp ->
  Forall (set_task_ok cf comp) ks -> set_held cf comp H f ((fun k => (k_st k, k_own k)) <$> ks) xs ->
  exists s', crun sched (begin H ks) = inl s' /\
    forall ls, ended s' ls -> exists ys, set_held cf comp (cs_mem s') f ((fun l => (l_st l, l_own l)) <$> ls) ys /\
      round_spec (sops_spec comp) (zip (k_call <$> ks) (l_ans <$> ls)) xs ys.
Proof. intros Hswo. apply round_runs. intros. by apply set_call_ok. Qed.
Print Assumptions C82_set_round.

Theorem C82_set_ends V (cf : cfg V) comp H f ks xs sched : swo comp ->
  Forall (set_task_ok cf comp) ks -> set_held cf comp H f ((fun k => (k_st k, k_own k)) <$> ks) xs -> fair (length ks) sched ->
  exists n s', crun (sched <$> seq 0 n) (begin H ks) = inl s' /\ forall t, t ∈ cs_thr s' -> exists a, finished t a.
Proof.
  intros Hswo. apply (round_ends (set_inv cf comp) (fun _ => True) (set_calls cf comp) (sops_spec comp)). intros. by apply set_call_ok.
Qed.
Print Assumptions C82_set_ends.

(** Any number of rounds, in between which the sets are dealt out anew: the
    answers and the contents are those of the specification, every set shows
    its contents, and destroying all sets leaves the rest of the memory. *)
Theorem C82_set_rounds V (cf : cfg V) comp H f ms xs tr H2 ms2 : swo comp ->
  set_held cf comp H f ms xs -> set_rounds cf comp H ms tr H2 ms2 ->
  exists ys, set_rounds_spec comp tr xs ys /\ set_held cf comp H2 f ms2 ys /\
    length (concat ms2.*1) = length (concat ys) /\
    (forall h l, (h, l) ∈ zip (concat ms2.*1) (concat ys) -> set_shows comp (World H2 [] None 0 0) (TSet (c_dflt cf) h) l) /\
    runs (destroy_sets (TSet (c_dflt cf) <$> concat ms2.*1)) (World H2 [] None 0 0) (fun _ w' => w_heap w' = f).
Proof.
  intros Hswo Hh Hr. eapply (rounds_ok (set_inv cf comp) _ _ (sops_spec comp) _ deal_keeps) with (f := f) in Hr as (ys & Hh2 & Hs); [|by intros; apply set_call_ok|intros; by eapply set_deal_ok|exact Hh].
  exists ys. split; [exact Hs|]. split; [exact Hh2|].
  destruct (held_all (one_set comp (c_dflt cf)) (set_inv cf comp) (set_inv_each V cf comp) _ _ _ _ Hh2) as (g & (xss & Hv & Hr) & -> & Hd). rewrite Hv.
  assert (heap_is (World (g ∪ f) [] None 0 0) g f) as Hheap by (by split). split; [unfold vals; rewrite fmap_length; apply Hr|]. split.
  - intros h l [i Hi]%elem_of_list_lookup. apply lookup_zip_with_Some in Hi as (? & ? & [= <- <-] & Hhi & Hl).
    rewrite vals_lookup in Hl. destruct (xss !! i) as [x|] eqn:Ex; [|done]. simplify_eq/=. by eapply srow_shows.
  - by eapply destroy_sets_spec.
Qed.
Print Assumptions C82_set_rounds.

(** ** Example: two rounds of two threads, on the sets 5,10,15,20,30,40 and 7,15,50 *)
Definition hs_task (st : list addr) (own : gset addr) (ops : list (sop nat)) (orc : list event) : task :=
  Task st own ops orc (pbind (proj1_sig (st_exec_sops nat _ tcD nat_lt ops (TSet 0 <$> st))) (fun es => PRet (st, es))).
Lemma hs_task_ok st own ops orc : set_task_ok tcD nat_lt (hs_task st own ops orc).
Proof.
  split; [done|]. intros w. unfold hs_task, set_calls. simpl. rewrite exec_pbind. unfold bind.
  rewrite (proj1 (proj2_sig (st_exec_sops nat _ tcD nat_lt ops (TSet 0 <$> st)))). done.
Qed.
Definition hs_g1 : gmap addr (tcell nat) := set_heap_of 0 1 exT.
Definition hs_round1 : list task :=
  [hs_task [1%positive] (dom hs_g1) [SoInsert 0 (HVal 12); SoEraseKey 0 (HVal 20)] [];
   hs_task [20%positive] (dom exH2) [SoInsert 0 (HVal 9); SoInsert 0 (HVal 8)] [EvOk 1; EvOk 1; EvFail 0]].
Definition hs_s1 := sys_of (crun (round_robin 2000) (begin (hs_g1 ∪ exH2) hs_round1)).
(** The second round: the first thread gets both sets, the second one none. *)
Definition hs_own1 : gset addr := list_to_set [1; 6; 4; 7; 3; 5; 25; 20; 21; 22; 23; 24]%positive.
Definition hs_round2 : list task :=
  [hs_task [20; 1]%positive hs_own1 [SoEraseKey 1 (HVal 5); SoSwap 0 1; SoCount 1 (HVal 9); SoInsert 0 (HVal 15)] []; hs_task [] ∅ [] []].
Definition hs_s2 := sys_of (crun (round_robin 2000) (begin (cs_mem hs_s1) hs_round2)).
Lemma hs_run1 : crun (round_robin 2000) (begin (hs_g1 ∪ exH2) hs_round1) = inl hs_s1.
Proof.
  assert (match crun (round_robin 2000) (begin (hs_g1 ∪ exH2) hs_round1) with inl _ => true | inr _ => false end = true) as Hc by (vm_compute; reflexivity).
  unfold hs_s1. revert Hc. generalize (crun (round_robin 2000) (begin (hs_g1 ∪ exH2) hs_round1)). intros [s|]; [reflexivity|discriminate].
Qed.
Lemma hs_run2 : crun (round_robin 2000) (begin (cs_mem hs_s1) hs_round2) = inl hs_s2.
Proof.
  assert (match crun (round_robin 2000) (begin (cs_mem hs_s1) hs_round2) with inl _ => true | inr _ => false end = true) as Hc by (vm_compute; reflexivity).
  unfold hs_s2. revert Hc. generalize (crun (round_robin 2000) (begin (cs_mem hs_s1) hs_round2)). intros [s|]; [reflexivity|discriminate].
Qed.

Fixpoint grows (H : gmap addr (tcell nat)) (seen l : list addr) : bool :=
  match l with [] => true | x :: l => existsb (fun y => bool_decide (x ∈ links H y)) seen && grows H (x :: seen) l end.
Lemma reach_grows H h l a : forallb (fun x => forallb (fun y => bool_decide (y ∈ h :: l)) (links H x)) (h :: l) = true -> grows H [h] l = true ->
  set_reach H h a <-> a ∈ h :: l.
Proof.
  intros Hc Hg. split.
  - intros Hr. rewrite forallb_forall in Hc. remember h as s eqn:Es in Hr. assert (s ∈ h :: l) as Hin by (subst; left). clear Es. induction Hr as [x|x y z Hxy _ IH]; [done|].
    apply IH. apply elem_of_list_In in Hin. specialize (Hc x Hin). rewrite forallb_forall in Hc. apply elem_of_list_In in Hxy. specialize (Hc y Hxy). by apply bool_decide_eq_true in Hc.
  - intros [->|Ha]%elem_of_cons; [apply rtc_refl|].
    assert (forall x, x ∈ [h] -> set_reach H h x) as Hs by (intros x ->%elem_of_list_singleton; apply rtc_refl). clear Hc. revert Hg Hs. generalize [h]. revert Ha.
    induction l as [|y l IH]; intros Ha seen; [by apply elem_of_nil in Ha|]. simpl. intros [Hy Hg]%andb_prop Hs.
    apply existsb_exists in Hy as (z & Hz%elem_of_list_In & Hzy%bool_decide_eq_true).
    assert (set_reach H h y) as Hry by (eapply rtc_r; [by apply Hs|done]). apply elem_of_cons in Ha as [->|Ha]; [done|].
    apply (IH Ha (y :: seen)); [done|]. intros x [->|Hx]%elem_of_cons; auto.
Qed.
Lemma hs_deal : set_deal (cs_mem hs_s1) ((fun l : rest => (l_st l, l_own l)) <$> (rest_of <$> cs_thr hs_s1)) ((fun k => (k_st k, k_own k)) <$> hs_round2).
Proof.
  assert (forall a, set_reach (cs_mem hs_s1) 20 a <-> a ∈ [20; 21; 22; 23; 24]%positive) as C20.
  { intros a. apply reach_grows; vm_compute; reflexivity. }
  assert (forall a, set_reach (cs_mem hs_s1) 1 a <-> a ∈ [1; 6; 4; 7; 3; 5; 25]%positive) as C1.
  { intros a. apply reach_grows; vm_compute; reflexivity. }
  split.
  { match goal with |- ?x ≡ₚ ?y => assert (x = [1; 20]%positive) as -> by (vm_compute; reflexivity); assert (y = [20; 1]%positive) as -> by (vm_compute; reflexivity) end.
    apply (Permutation_app_comm [1%positive] [20%positive]). }
  revert C1 C20. generalize (cs_mem hs_s1). intros H C1 C20. repeat (apply List.Forall_cons || apply List.Forall_nil); intros a.
  - change (a ∈ hs_own1 <-> exists s, s ∈ [20; 1]%positive /\ set_reach H s a). unfold hs_own1. rewrite elem_of_list_to_set. split.
    + intros Ha. change (a ∈ [1; 6; 4; 7; 3; 5; 25]%positive ++ [20; 21; 22; 23; 24]%positive) in Ha.
      apply elem_of_app in Ha as [Ha|Ha]; [exists 1%positive; split; [right; left|by apply C1]|exists 20%positive; split; [left|by apply C20]].
    + intros (s & [->|[->|[]%elem_of_nil]%elem_of_cons]%elem_of_cons & Hs); [apply C20 in Hs|apply C1 in Hs]; clear -Hs; set_solver.
  - change (a ∈ (∅ : gset addr) <-> exists s, s ∈ ([] : list addr) /\ set_reach H s a). split; [set_solver|]. by intros (s & []%elem_of_nil & _).
Qed.
Example C82_set_rounds_example :
  swo nat_lt /\
  set_held tcD nat_lt (hs_g1 ∪ exH2) ∅ ((fun k => (k_st k, k_own k)) <$> hs_round1) [[exX.*2]; [exX2.*2]] /\
  (exists tr ms2, set_rounds tcD nat_lt (hs_g1 ∪ exH2) ((fun k => (k_st k, k_own k)) <$> hs_round1) tr (cs_mem hs_s2) ms2 /\
     omap (fun e => match e with Round rd => Some rd | Deal _ _ => None end) tr =
       [zip (k_call <$> hs_round1) (l_ans <$> (rest_of <$> cs_thr hs_s1)); zip (k_call <$> hs_round2) (l_ans <$> (rest_of <$> cs_thr hs_s2))]) /\
  (fun l : rest => fst <$> (l_ans l : list (option error * sans nat))) <$> (rest_of <$> cs_thr hs_s1) = [[None; None]; [None; Some EBadAlloc]] /\
  match (let! a := t_walk (TSet 0 1) in let! b := t_walk (TSet 0 20) in ret [a; b])
    (World (cs_mem hs_s2) [] None 0 0) with Done r _ => Some r | Fault _ => None end = Some [[7; 9; 15; 50]; [10; 12; 15; 30; 40]].
Proof.
  split; [apply nat_lt_swo|]. split; [|split; [|split; vm_compute; reflexivity]].
  - exists [hs_g1; exH2]. pose proof ex_disj as Hd. fold hs_g1 in Hd.
    split; [|split; [done|split; [done|split]]].
    + split; [apply map_empty_subseteq|]. split.
      * intros g Hg. split; [|apply map_disjoint_empty_l]. apply elem_of_cons in Hg as [->|[->|[]%elem_of_nil]%elem_of_cons];
          [apply map_union_subseteq_l|by apply map_union_subseteq_r].
      * intros a [c Hc]. right. apply lookup_union_Some in Hc as [Hc|Hc]; [exists hs_g1|exists exH2|done]; (split; [set_solver|by exists c]).
    + intros [|[|i]] [|[|k]] g g' Hne Hi Hk; simpl in *; simplify_eq; done.
    + intros [|[|i]] m x g Hm Hx Hg; [injection Hm as <-; injection Hx as <-; injection Hg as <-..|done]; (split; [done|]).
      * exists [exX]. split; [done|]. split; [done|]. exists hs_g1, ∅. split_and!; [by rewrite (right_id_L ∅ (∪))|apply map_disjoint_empty_r| |done].
        apply good_own. by vm_compute.
      * exists [exX2]. split; [done|]. split; [done|]. exists exH2, ∅. split_and!; [by rewrite (right_id_L ∅ (∪))|apply map_disjoint_empty_r|apply ex_own2|done].
  - eexists _, _. split.
    + eapply rounds_round; [|exact hs_run1|apply ended_by; vm_compute; reflexivity|].
      { repeat (apply List.Forall_cons || apply List.Forall_nil); apply hs_task_ok. }
      eapply rounds_deal; [exact hs_deal|].
      eapply rounds_round; [|exact hs_run2|apply ended_by; vm_compute; reflexivity|apply rounds_nil].
      repeat (apply List.Forall_cons || apply List.Forall_nil); apply hs_task_ok.
    + reflexivity.
Qed.
