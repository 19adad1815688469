(** * Threads that use different objects do not disturb each other *)
From Verif Require Export ConcSpec.

Lemma same_failures_app l e e' o o' :
  (forall c, e <> EvFail c) -> (forall c, e' <> EvFail c) ->
  same_failures (l ++ e :: o) o' -> same_failures (l ++ e' :: o) o'.
Proof.
  intros He He' Hs k c. rewrite <-(Hs k c).
  destruct (decide (k < length l)) as [Hk|Hk]; [by rewrite !lookup_app_l|].
  rewrite !lookup_app_r by lia. destruct (k - length l) as [|n]; [|done]. simpl. split; intros [=]; naive_solver.
Qed.
Lemma same_failures_end l e o' : (forall c, e <> EvFail c) -> same_failures l o' -> same_failures (l ++ [e]) o'.
Proof.
  intros He Hs k c. rewrite <-(Hs k c).
  destruct (decide (k < length l)) as [Hk|Hk]; [by rewrite !lookup_app_l|].
  rewrite !lookup_app_r by lia. rewrite (lookup_ge_None_2 l) by lia.
  destruct (k - length l) as [|n]; simpl; [|done]. split; [intros [=]; naive_solver|done].
Qed.

Section conc.
  Context {C A : Type}.
  Notation mem := (gmap addr C).
  Notation job := (job C A).

  (** A thread in the middle of its job, with the part [g] of the shared
      memory: what is left to do ends as the whole job ends alone. *)
  Definition tinv (j : job) (t : cthr C A) (g : mem) : Prop :=
    ct_own t = dom (ct_stack t ∪ g) /\ ct_stack t ##ₘ g /\
    (only_reads (j_prog j) -> only_reads (ct_prog t)) /\
    exists log, same_failures (log ++ ct_orc t) (j_orc j) /\
      forall o, alone j (log ++ o) = exec (ct_prog t) (World (ct_stack t ∪ g) o (ct_err t) (ct_allocs t) (ct_ctors t)).

  (** What a step does to the memory and to the part of the thread. *)
  Definition change (j : job) (H g H' g' : mem) : Prop :=
    (H' = H /\ g' = g) \/
    (~ only_reads (j_prog j) /\ exists a,
      (exists c, (is_Some (g !! a) \/ H !! a = None) /\ H' = <[a := c]> H /\ g' = <[a := c]> g) \/
      (is_Some (g !! a) /\ H' = delete a H /\ g' = delete a g)).

  Lemma look_own (H s g : mem) a : s ##ₘ g -> g ⊆ H -> is_Some ((s ∪ g) !! a) -> look H s a = (s ∪ g) !! a.
  Proof.
    intros Hd Hg [c Hc]. unfold look. destruct (s !! a) as [c'|] eqn:E.
    - by rewrite (lookup_union_Some_l _ _ _ _ E).
    - rewrite Hc. rewrite lookup_union_r in Hc by done. by eapply lookup_weaken.
  Qed.
  Lemma cpick_free (H s : mem) hint : s !! cpick H s hint = None /\ H !! cpick H s hint = None.
  Proof.
    unfold cpick. destruct (look H s hint) as [c|] eqn:E.
    - assert (fresh (dom H ∪ dom s) ∉ dom H ∪ dom s) as Hf by apply is_fresh.
      apply not_elem_of_union in Hf as [H1%not_elem_of_dom H2%not_elem_of_dom]. done.
    - unfold look in E. by destruct (s !! hint).
  Qed.

  Lemma cstep_ok j H t g :
    job_ok j -> tinv j t g -> g ⊆ H ->
    exists H' t' g', cstep H t = inl (H', t') /\ tinv j t' g' /\ change j H g H' g'.
  Proof.
    intros Hok (Hown & Hd & Hro & log & Hsf & Hrep) Hg. destruct t as [p own s o e n1 n2]. simpl in *.
    assert (exists a w, exec p (World (s ∪ g) o e n1 n2) = Done a w) as (ra & rw & Hdone).
    { rewrite <-Hrep. by apply Hok. }
    assert (forall a, is_Some ((s ∪ g) !! a) -> s !! a = None -> is_Some (g !! a)) as Hing.
    { intros a [c Hc] Hs. rewrite lookup_union_r in Hc by done. by exists c. }
    assert (forall a c, (s ∪ g) !! a = Some c -> <[a := c]> (s ∪ g) = s ∪ g) as Hid by (intros; by apply insert_id).
    destruct p as [a|f|a f k|a c k|c k|a k|c k|k|k|e' k|k|k|k]; simpl in *.
    - eexists _, _, g. split; [done|]. split; [|by left]. split_and!; try done. exists log. by split.
    - done.
    - (* load *)
      destruct ((s ∪ g) !! a) as [c|] eqn:Ea; [|done].
      rewrite (look_own H s g a Hd Hg (ex_intro _ c Ea)), Ea. eexists _, _, g. split; [reflexivity|]. split; [|by left].
      split_and!; try done; simpl; [auto|]. exists log. split; [done|]. intros o'. by rewrite Hrep.
    - (* store *)
      unfold store, bind in Hdone. simpl in Hdone. destruct ((s ∪ g) !! a) as [c0|] eqn:Ea; [|done].
      destruct (s !! a) as [c1|] eqn:Es.
      + eexists _, _, g. split; [reflexivity|]. split; [|by left]. split_and!; simpl; try done.
        * rewrite <-insert_union_l, dom_insert_L. rewrite Hown. symmetry. apply subseteq_union_1_L, singleton_subseteq_l, elem_of_dom. by exists c0.
        * apply map_disjoint_insert_l_2; [|done]. by eapply map_disjoint_Some_l.
        * exists log. split; [done|]. intros o'. rewrite Hrep. unfold store, bind. simpl. rewrite Ea. simpl. unfold set_heap. simpl. by rewrite insert_union_l.
      + destruct (Hing a) as [c1 Hc1]; [by rewrite Ea|done|]. rewrite (lookup_weaken _ _ _ _ Hc1 Hg).
        eexists _, _, (<[a := c]> g). split; [reflexivity|]. split; [|right; split; [by intros ?%Hro|]; exists a; left; exists c; eauto].
        split_and!; simpl; try done.
        * rewrite <-insert_union_r by done. rewrite dom_insert_L. rewrite Hown. symmetry. apply subseteq_union_1_L, singleton_subseteq_l, elem_of_dom. by exists c0.
        * by apply map_disjoint_insert_r_2.
        * exists log. split; [done|]. intros o'. rewrite Hrep. unfold store, bind. simpl. rewrite Ea. simpl. unfold set_heap. simpl. by rewrite insert_union_r.
    - (* new *)
      destruct (cpick_free H s) with (hint := 1%positive) as [Hp1 Hp2].
      assert (forall hint, let a := cpick H s hint in (s ∪ g) !! a = None) as Hfree.
      { intros hint a. destruct (cpick_free H s hint). apply lookup_union_None. split; [done|]. by eapply lookup_weaken_None. }
      assert (forall hint, (s ∪ g) !! hint = None -> pick (s ∪ g) hint = hint) as Hpick by (intros hint Hh; unfold pick; by rewrite Hh).
      assert (forall hint o', same_failures (log ++ [EvOk (cpick H s hint)] ++ o') (j_orc j) ->
        exists H' t' g', inl (B := fault) (let a := cpick H s hint in (<[a := c]> H, CThr (k (Some a)) ({[a]} ∪ own) s o' e (S n1) n2)) = inl (H', t') /\
          tinv j t' g' /\ change j H g H' g') as Hnew.
      { intros hint o' Hs. destruct (cpick_free H s hint) as [Hf1 Hf2]. eexists _, _, (<[cpick H s hint := c]> g). split; [reflexivity|].
        split; [|right; split; [by intros ?%Hro|]; exists (cpick H s hint); left; exists c; eauto].
        split_and!; simpl; try done.
        - rewrite <-insert_union_r by done. by rewrite dom_insert_L, Hown.
        - by apply map_disjoint_insert_r_2.
        - exists (log ++ [EvOk (cpick H s hint)]). split; [by rewrite <-(assoc_L (++))|]. intros o2. rewrite <-(assoc_L (++)). rewrite Hrep. simpl.
          unfold alloc_cell, bind. simpl. rewrite Hpick by apply Hfree. unfold set_heap. simpl. by rewrite <-insert_union_r. }
      destruct o as [|[code|hint] o]; simpl.
      + apply Hnew. rewrite app_nil_r in *. by apply same_failures_end.
      + eexists _, _, g. split; [reflexivity|]. split; [|by left]. split_and!; simpl; try done.
        exists (log ++ [EvFail code]). split; [by rewrite <-(assoc_L (++))|]. intros o2. rewrite <-(assoc_L (++)). rewrite Hrep. done.
      + apply Hnew. by eapply same_failures_app; [..|exact Hsf].
    - (* free *)
      unfold free_cell, bind in Hdone. simpl in Hdone. destruct ((s ∪ g) !! a) as [c0|] eqn:Ea; [|done].
      assert (forall s' g', delete a (s ∪ g) = s' ∪ g' -> s' ##ₘ g' ->
        tinv j (CThr k (own ∖ {[a]}) s' o e n1 n2) g') as Hinv.
      { intros s' g' Heq Hd'. split_and!; simpl; try done.
        - rewrite <-Heq, dom_delete_L. by rewrite Hown.
        - exists log. split; [done|]. intros o'. rewrite Hrep. unfold free_cell, bind. simpl. rewrite Ea. simpl. unfold set_heap. simpl. by rewrite Heq. }
      destruct (s !! a) as [c1|] eqn:Es.
      + eexists _, _, g. split; [reflexivity|]. split; [|by left]. apply Hinv.
        * rewrite delete_union. f_equal. apply delete_notin. by eapply map_disjoint_Some_r.
        * by apply map_disjoint_delete_l.
      + destruct (Hing a) as [c1 Hc1]; [by rewrite Ea|done|]. rewrite (lookup_weaken _ _ _ _ Hc1 Hg).
        eexists _, _, (delete a g). split; [reflexivity|]. split; [|right; split; [by intros ?%Hro|]; exists a; right; eauto].
        apply Hinv.
        * rewrite delete_union. f_equal. by apply delete_notin.
        * by apply map_disjoint_delete_r.
    - (* local *)
      eexists _, _, g. split; [reflexivity|]. split; [|by left].
      assert (fresh own ∉ own) as Hf by apply is_fresh. rewrite Hown in Hf at 2. apply not_elem_of_dom in Hf.
      pose proof Hf as Hf'. apply lookup_union_None in Hf' as [Hf1 Hf2].
      split_and!; simpl; try done.
      + rewrite <-insert_union_l, dom_insert_L. by rewrite Hown.
      + by apply map_disjoint_insert_l_2.
      + exists log. split; [done|]. intros o'. rewrite Hrep. unfold new_local, bind. simpl. unfold set_heap. simpl. rewrite <-insert_union_l. by rewrite Hown.
    - (* event *)
      assert (forall ev o', same_failures (log ++ [ev] ++ o') (j_orc j) ->
        exists H' t' g', inl (B := fault) (H, CThr (k ev) own s o' e n1 n2) = inl (H', t') /\ tinv j t' g' /\ change j H g H' g') as Hev.
      { intros ev o' Hs. eexists _, _, g. split; [reflexivity|]. split; [|by left]. split_and!; simpl; try done.
        exists (log ++ [ev]). split; [by rewrite <-(assoc_L (++))|]. intros o2. rewrite <-(assoc_L (++)). by rewrite Hrep. }
      destruct o as [|ev o]; simpl; apply Hev; [|done]. rewrite app_nil_r in *. by apply same_failures_end.
    - eexists _, _, g. split; [reflexivity|]. split; [|by left]. split_and!; simpl; try done; [auto|]. exists log. split; [done|]. intros o'. by rewrite Hrep.
    - eexists _, _, g. split; [reflexivity|]. split; [|by left]. split_and!; simpl; try done. exists log. split; [done|]. intros o'. by rewrite Hrep.
    - eexists _, _, g. split; [reflexivity|]. split; [|by left]. split_and!; simpl; try done. exists log. split; [done|]. intros o'. by rewrite Hrep.
    - eexists _, _, g. split; [reflexivity|]. split; [|by left]. split_and!; simpl; try done. exists log. split; [done|]. intros o'. by rewrite Hrep.
    - eexists _, _, g. split; [reflexivity|]. split; [|by left]. split_and!; simpl; try done; [auto|]. exists log. split; [done|]. intros o'. rewrite Hrep. simpl.
      by rewrite Hown, size_dom.
  Qed.

  (** The parts of all threads. *)
  Definition parts_ok (js : list job) (gs : list mem) : Prop := length gs = length js /\
    forall i k j j' g g', i <> k -> js !! i = Some j -> js !! k = Some j' -> gs !! i = Some g -> gs !! k = Some g' ->
      g ##ₘ g' \/ (only_reads (j_prog j) /\ only_reads (j_prog j')).
  Definition sinv (f : mem) (js : list job) (s : csys C A) (gs : list mem) : Prop :=
    parts_ok js gs /\ consists (cs_mem s) f gs /\ length (cs_thr s) = length js /\
    forall i j t g, js !! i = Some j -> cs_thr s !! i = Some t -> gs !! i = Some g -> tinv j t g.

  Lemma parts_change f js H gs i j g H' g' :
    parts_ok js gs -> consists H f gs -> js !! i = Some j -> gs !! i = Some g -> change j H g H' g' ->
    parts_ok js (<[i := g']> gs) /\ consists H' f (<[i := g']> gs).
  Proof.
    intros [Hl Hp] (Hf & Hgs & Hcov) Hj Hg [[-> ->]|(Hnr & a & Hc)].
    { rewrite list_insert_id by done. by split. }
    assert (forall k x, k <> i -> gs !! k = Some x -> g ##ₘ x) as Hdis.
    { intros k x Hk Hx. destruct (lookup_lt_is_Some_2 js k) as [j' Hj']; [rewrite <-Hl; by eapply lookup_lt_Some|].
      destruct (Hp i k j j' g x) as [?|[? _]]; done. }
    assert (Hi : i < length gs) by (by eapply lookup_lt_Some).
    assert (Hgin : g ∈ gs) by (by eapply elem_of_list_lookup_2). destruct (Hgs g Hgin) as [HgH Hfg].
    assert ((forall x, x ∈ gs -> g ##ₘ x \/ x = g) ) as _ by (intros; apply elem_of_list_lookup in H0 as [k Hk]; destruct (decide (k = i)) as [->|]; [right; congruence|left; eauto]).
    destruct Hc as [(c & Ha & -> & ->)|(Ha & -> & ->)].
    - assert (forall x, x ##ₘ g -> x ⊆ H -> x !! a = None) as Hnone.
      { intros x Hx HxH. destruct Ha as [[c0 Hc0]|Ha]; [by eapply map_disjoint_Some_r|by eapply lookup_weaken_None]. }
      assert (f !! a = None) as Hfa by (by apply Hnone).
      split; [split; [by rewrite insert_length|]|split_and!].
      + intros k1 k2 j1 j2 x1 x2 Hne H1 H2 Hx1 Hx2.
        destruct (decide (k1 = i)) as [->|H1i]; destruct (decide (k2 = i)) as [->|H2i]; [done|..].
        * rewrite list_lookup_insert in Hx1 by done. rewrite list_lookup_insert_ne in Hx2 by done. simplify_eq. left.
          apply map_disjoint_insert_l_2; [|by eapply Hdis]. apply Hnone; [symmetry; by eapply Hdis|]. eapply Hgs, elem_of_list_lookup_2, Hx2.
        * rewrite list_lookup_insert in Hx2 by done. rewrite list_lookup_insert_ne in Hx1 by done. simplify_eq. left.
          apply map_disjoint_insert_r_2; [|symmetry; by eapply Hdis]. apply Hnone; [symmetry; by eapply Hdis|]. eapply Hgs, elem_of_list_lookup_2, Hx1.
        * rewrite list_lookup_insert_ne in Hx1, Hx2 by done. eauto.
      + by apply insert_subseteq_r.
      + intros x [k Hk]%elem_of_list_lookup. destruct (decide (k = i)) as [->|Hki].
        * rewrite list_lookup_insert in Hk by done. simplify_eq. split; [by apply insert_mono|]. by apply map_disjoint_insert_r_2.
        * rewrite list_lookup_insert_ne in Hk by done. destruct (Hgs x) as [HxH Hfx]; [by eapply elem_of_list_lookup_2|]. split; [|done].
          apply insert_subseteq_r; [|done]. apply Hnone; [symmetry; by eapply Hdis|done].
      + intros b Hb. destruct (decide (b = a)) as [->|Hne].
        * right. exists (<[a := c]> g). split; [|by rewrite lookup_insert]. eapply elem_of_list_lookup_2. by apply list_lookup_insert.
        * rewrite lookup_insert_ne in Hb by done. destruct (Hcov b Hb) as [?|(x & Hx & Hxb)]; [by left|right].
          apply elem_of_list_lookup in Hx as [k Hk]. destruct (decide (k = i)) as [->|Hki].
          -- simplify_eq. exists (<[a := c]> g). split; [|by rewrite lookup_insert_ne]. eapply elem_of_list_lookup_2. by apply list_lookup_insert.
          -- exists x. split; [|done]. eapply (elem_of_list_lookup_2 _ k). by rewrite list_lookup_insert_ne.
    - destruct Ha as [c0 Hc0]. assert (forall x, x ##ₘ g -> x !! a = None) as Hnone by (intros x Hx; by eapply map_disjoint_Some_r).
      split; [split; [by rewrite insert_length|]|split_and!].
      + intros k1 k2 j1 j2 x1 x2 Hne H1 H2 Hx1 Hx2.
        destruct (decide (k1 = i)) as [->|H1i]; destruct (decide (k2 = i)) as [->|H2i]; [done|..].
        * rewrite list_lookup_insert in Hx1 by done. rewrite list_lookup_insert_ne in Hx2 by done. simplify_eq. left.
          apply map_disjoint_delete_l. by eapply Hdis.
        * rewrite list_lookup_insert in Hx2 by done. rewrite list_lookup_insert_ne in Hx1 by done. simplify_eq. left.
          apply map_disjoint_delete_r. symmetry. by eapply Hdis.
        * rewrite list_lookup_insert_ne in Hx1, Hx2 by done. eauto.
      + rewrite <-(delete_notin f a) by (by apply Hnone). by apply delete_mono.
      + intros x [k Hk]%elem_of_list_lookup. destruct (decide (k = i)) as [->|Hki].
        * rewrite list_lookup_insert in Hk by done. simplify_eq. split; [by apply delete_mono|]. by apply map_disjoint_delete_r.
        * rewrite list_lookup_insert_ne in Hk by done. destruct (Hgs x) as [HxH Hfx]; [by eapply elem_of_list_lookup_2|]. split; [|done].
          rewrite <-(delete_notin x a) by (apply Hnone; symmetry; by eapply Hdis). by apply delete_mono.
      + intros b Hb. destruct (decide (b = a)) as [->|Hne]; [by rewrite lookup_delete in Hb; destruct Hb|].
        rewrite lookup_delete_ne in Hb by done. destruct (Hcov b Hb) as [?|(x & Hx & Hxb)]; [by left|right].
        apply elem_of_list_lookup in Hx as [k Hk]. destruct (decide (k = i)) as [->|Hki].
        -- simplify_eq. exists (delete a g). split; [|by rewrite lookup_delete_ne]. eapply elem_of_list_lookup_2. by apply list_lookup_insert.
        -- exists x. split; [|done]. eapply (elem_of_list_lookup_2 _ k). by rewrite list_lookup_insert_ne.
  Qed.

  Lemma csstep_ok f js s gs i :
    Forall job_ok js -> sinv f js s gs -> exists s' gs', csstep i s = inl s' /\ sinv f js s' gs'.
  Proof.
    intros Hok (Hp & Hc & Hl & Ht). unfold csstep. destruct (cs_thr s !! i) as [t|] eqn:Ei; [|by exists s, gs].
    assert (Hi : i < length js) by (rewrite <-Hl; by eapply lookup_lt_Some).
    destruct (lookup_lt_is_Some_2 js i Hi) as [j Hj]. destruct (lookup_lt_is_Some_2 gs i) as [g Hg]; [by rewrite (proj1 Hp)|].
    destruct (cstep_ok j (cs_mem s) t g) as (H' & t' & g' & -> & Ht' & Hch).
    { rewrite Forall_lookup in Hok. eauto. }
    { eauto. }
    { eapply Hc, elem_of_list_lookup_2, Hg. }
    destruct (parts_change f js _ gs i j g H' g' Hp Hc Hj Hg Hch) as [Hp' Hc'].
    eexists _, _. split; [reflexivity|]. split_and!; [exact Hp'|exact Hc'|by simpl; rewrite insert_length|].
    simpl. intros k j1 t1 g1 Hj1 Ht1 Hg1. destruct (decide (k = i)) as [->|Hk].
    - rewrite list_lookup_insert in Ht1 by (by eapply lookup_lt_Some). rewrite list_lookup_insert in Hg1 by (by eapply lookup_lt_Some). by simplify_eq.
    - rewrite list_lookup_insert_ne in Ht1 by done. rewrite list_lookup_insert_ne in Hg1 by done. eauto.
  Qed.
  Lemma crun_ok f js sched : forall s gs,
    Forall job_ok js -> sinv f js s gs -> exists s' gs', crun sched s = inl s' /\ sinv f js s' gs'.
  Proof.
    induction sched as [|i sched IH]; intros s gs Hok Hs; simpl; [eauto|].
    destruct (csstep_ok f js s gs i Hok Hs) as (s1 & gs1 & -> & Hs1). eauto.
  Qed.

  Lemma start_inv f js H :
    consists H f (j_mem <$> js) ->
    (forall i k j j', i <> k -> js !! i = Some j -> js !! k = Some j' -> compatible j j') ->
    sinv f js (start H js) (j_mem <$> js).
  Proof.
    intros Hc Hcomp. split_and!; [split| | |].
    - by rewrite fmap_length.
    - intros i k j j' g g' Hne Hj Hj' Hg Hg'. rewrite list_lookup_fmap in Hg, Hg'. rewrite Hj in Hg. rewrite Hj' in Hg'. simplify_eq/=.
      by apply (Hcomp i k).
    - done.
    - simpl. by rewrite fmap_length.
    - intros i j t g Hj Ht Hg. simpl in Ht. rewrite list_lookup_fmap in Hg. rewrite list_lookup_fmap in Ht. rewrite Hj in Hg. rewrite Hj in Ht. simplify_eq/=.
      split_and!; simpl; [by rewrite (left_id_L ∅ (∪))|apply map_disjoint_empty_l|done|].
      exists []. split; [done|]. intros o. by rewrite (left_id_L ∅ (∪)).
  Qed.

  (** ** Every thread gets to the end if it keeps getting turns *)
  Lemma crun_app l1 : forall l2 (s s1 : csys C A), crun l1 s = inl s1 -> crun (l1 ++ l2) s = crun l2 s1.
  Proof.
    induction l1 as [|i l1 IH]; intros l2 s s1 Hr; simpl in *; [by simplify_eq|].
    destruct (csstep i s) as [s'|]; [|done]. by apply IH.
  Qed.

  Section fair.
    Context (sched : nat -> nat) (s0 : csys C A).
    Definition state_at (n : nat) : csys C A + fault := crun (sched <$> seq 0 n) s0.
    Context (no_fault : forall n, exists s, state_at n = inl s).
    Context (fair : forall i m, i < length (cs_thr s0) -> exists n, m <= n /\ sched n = i).

    Lemma state_S n s : state_at n = inl s -> state_at (S n) = csstep (sched n) s.
    Proof.
      intros Hs. unfold state_at. rewrite seq_S, fmap_app. erewrite crun_app by exact Hs. simpl.
      by destruct (csstep (sched n) s).
    Qed.
    Lemma state_length n : forall s, state_at n = inl s -> length (cs_thr s) = length (cs_thr s0).
    Proof.
      induction n as [|n IH]; intros s Hs; [unfold state_at in Hs; simpl in Hs; by simplify_eq|].
      destruct (no_fault n) as [s1 Hs1]. rewrite (state_S n s1 Hs1) in Hs. rewrite <-(IH _ Hs1). unfold csstep in Hs.
      destruct (cs_thr s1 !! sched n); [|by simplify_eq]. destruct (cstep _ _) as [[? ?]|]; simplify_eq/=. by rewrite insert_length.
    Qed.
    Lemma other_keeps n s s' i t :
      state_at n = inl s -> state_at (S n) = inl s' -> sched n <> i -> cs_thr s !! i = Some t -> cs_thr s' !! i = Some t.
    Proof.
      intros Hs Hs' Hne Ht. rewrite (state_S n s Hs) in Hs'. unfold csstep in Hs'.
      destruct (cs_thr s !! sched n); [|by simplify_eq]. destruct (cstep _ _) as [[? ?]|]; simplify_eq/=. by rewrite list_lookup_insert_ne.
    Qed.
    Lemma next_turn i t d : forall n s, state_at n = inl s -> cs_thr s !! i = Some t -> sched (d + n) = i ->
      exists m s', n <= m /\ state_at m = inl s' /\ cs_thr s' !! i = Some t /\ sched m = i.
    Proof.
      induction d as [|d IH]; intros n s Hs Ht Hd; [by exists n, s|].
      destruct (decide (sched n = i)) as [He|Hne]; [by exists n, s|].
      destruct (no_fault (S n)) as [s1 Hs1]. destruct (IH (S n) s1) as (m & s2 & Hm & ?); [done|exact (other_keeps n s s1 i t Hs Hs1 Hne Ht)|rewrite <-Hd; f_equal; lia|].
      exists m, s2. split; [lia|done].
    Qed.
    Lemma finished_stays n m i : n <= m -> forall s t a, state_at n = inl s -> cs_thr s !! i = Some t -> finished t a ->
      exists s', state_at m = inl s' /\ cs_thr s' !! i = Some t.
    Proof.
      intros Hm. induction Hm as [|m Hm IH]; intros s t a Hs Ht Hf; [by exists s|].
      destruct (IH s t a Hs Ht Hf) as (s1 & Hs1 & Ht1). destruct (no_fault (S m)) as [s2 Hs2]. exists s2. split; [done|].
      destruct (decide (sched m = i)) as [He|Hne]; [|exact (other_keeps m s1 s2 i t Hs1 Hs2 Hne Ht1)].
      rewrite (state_S m s1 Hs1), He in Hs2. unfold csstep in Hs2. rewrite Ht1 in Hs2.
      destruct t as [p own s' o e n1 n2]. unfold finished in Hf. simpl in Hf. subst p. simpl in Hs2. simplify_eq/=.
      apply list_lookup_insert. by eapply lookup_lt_Some.
    Qed.

    Lemma gets_done i p : forall n s t, state_at n = inl s -> cs_thr s !! i = Some t -> ct_prog t = p ->
      exists m s' t' a, n <= m /\ state_at m = inl s' /\ cs_thr s' !! i = Some t' /\ finished t' a.
    Proof.
      assert (forall n s t, state_at n = inl s -> cs_thr s !! i = Some t ->
        exists m s' s2 H' t', n <= m /\ state_at m = inl s' /\ state_at (S m) = inl s2 /\ cstep (cs_mem s') t = inl (H', t') /\
          cs_thr s2 !! i = Some t') as Hturn.
      { intros n s t Hs Ht. destruct (fair i n) as (m & Hm & He).
        { rewrite <-(state_length n s Hs). by eapply lookup_lt_Some. }
        destruct (next_turn i t (m - n) n s Hs Ht) as (m' & s' & Hm' & Hs' & Ht' & He'); [by replace (m - n + n) with m by lia|].
        destruct (no_fault (S m')) as [s2 Hs2]. exists m', s', s2. pose proof Hs2 as Hs2'.
        rewrite (state_S m' s' Hs'), He' in Hs2'. unfold csstep in Hs2'. rewrite Ht' in Hs2'.
        destruct (cstep (cs_mem s') t) as [[H' t']|]; [|done]. exists H', t'. split_and!; try done. simplify_eq/=.
        apply list_lookup_insert. by eapply lookup_lt_Some. }
      assert (forall q n s t, state_at n = inl s -> cs_thr s !! i = Some t -> ct_prog t = q ->
        (forall H H' t', cstep H t = inl (H', t') -> forall n s, state_at n = inl s -> cs_thr s !! i = Some t' ->
           exists m s' t' a, n <= m /\ state_at m = inl s' /\ cs_thr s' !! i = Some t' /\ finished t' a) ->
        exists m s' t' a, n <= m /\ state_at m = inl s' /\ cs_thr s' !! i = Some t' /\ finished t' a) as Hstep.
      { intros q n s t Hs Ht _ Hnext. destruct (Hturn n s t Hs Ht) as (m & s' & s2 & H' & t' & Hm & _ & Hs2 & Hc & Ht').
        destruct (Hnext _ _ _ Hc (S m) s2 Hs2 Ht') as (m2 & s3 & t3 & a & ? & ?). exists m2, s3, t3, a. split; [lia|done]. }
      induction p as [a|f|a f k IH|a c k IH|c k IH|a k IH|c k IH|k IH|k IH|e' k IH|k IH|k IH|k IH]; intros n s t Hs Ht Hp;
        [by exists n, s, t, a|..]; apply (Hstep _ n s t Hs Ht Hp); destruct t as [q own s1 o e n1 n2]; simpl in Hp; subst q;
        intros H H' t' Hc; simpl in Hc; intros n' s' Hs' Ht'; clear Hstep Hturn;
        repeat (match type of Hc with context [match ?x with _ => _ end] => destruct x; simplify_eq end); simplify_eq;
        by eapply IH.
    Qed.
    Lemma all_done : exists n s, state_at n = inl s /\ forall t, t ∈ cs_thr s -> exists a, finished t a.
    Proof.
      assert (forall k, exists n s, state_at n = inl s /\ forall i t, i < k -> cs_thr s !! i = Some t -> exists a, finished t a) as Hk.
      { induction k as [|k (n & s & Hs & IH)]; [destruct (no_fault 0) as [s Hs]; exists 0, s; split; [done|lia]|].
        destruct (cs_thr s !! k) as [t|] eqn:Ek; [|exists n, s; split; [done|]; intros i t Hi Ht; destruct (decide (i = k)) as [->|]; [congruence|apply (IH i); [lia|done]]].
        destruct (gets_done k _ n s t Hs Ek eq_refl) as (m & s' & t' & a & Hm & Hs' & Ht' & Hf).
        exists m, s'. split; [done|]. intros i u Hi Hu. destruct (decide (i = k)) as [->|Hne]; [simplify_eq; eauto|].
        assert (Hi' : i < length (cs_thr s)). { rewrite (state_length n s Hs), <-(state_length m s' Hs'). by eapply lookup_lt_Some. }
        destruct (lookup_lt_is_Some_2 _ _ Hi') as [u0 Hu0]. destruct (IH i u0) as [b Hb]; [lia|done|].
        destruct (finished_stays n m i Hm s u0 b Hs Hu0 Hb) as (s2 & Hs2 & Hu2). rewrite Hs' in Hs2. injection Hs2 as <-. rewrite Hu in Hu2. injection Hu2 as <-. by exists b. }
      destruct (Hk (length (cs_thr s0))) as (n & s & Hs & Hall). exists n, s. split; [done|].
      intros t [i Hi]%elem_of_list_lookup. apply (Hall i t); [|done]. rewrite <-(state_length n s Hs). by eapply lookup_lt_Some.
    Qed.
  End fair.
End conc.

(** ** Functions of the models as programs *)
Fixpoint pbind {C A B} (p : prog C A) (k : A -> prog C B) : prog C B :=
  match p with
  | PRet a => k a
  | PStop f => PStop f
  | PLoad a f q => PLoad a f (fun c => pbind (q c) k)
  | PStore a c q => PStore a c (pbind q k)
  | PNew c q => PNew c (fun r => pbind (q r) k)
  | PFree a q => PFree a (pbind q k)
  | PLocal c q => PLocal c (fun a => pbind (q a) k)
  | PEvent q => PEvent (fun e => pbind (q e) k)
  | PGetErr q => PGetErr (fun e => pbind (q e) k)
  | PPutErr e q => PPutErr e (pbind q k)
  | PTickAlloc q => PTickAlloc (pbind q k)
  | PTickCtor q => PTickCtor (pbind q k)
  | PSize q => PSize (fun n => pbind (q n) k)
  end.
Lemma exec_pbind {C A B} (p : prog C A) (k : A -> prog C B) w : exec (pbind p k) w = bind (exec p) (fun a => exec (k a)) w.
Proof.
  revert w. induction p; intros w; simpl; try done; unfold bind in *; simpl; auto;
    match goal with |- match ?x with _ => _ end = _ => destruct x; [auto|done] end.
Qed.
Lemma only_reads_pbind {C A B} (p : prog C A) (k : A -> prog C B) : only_reads p -> (forall a, only_reads (k a)) -> only_reads (pbind p k).
Proof. intros Hp Hk. induction p; simpl in *; auto; done. Qed.

(** [steps b m]: [m] is a program; if [b], one that only reads. *)
Definition steps {C A} (b : bool) (m : M C A) : Type :=
  {p : prog C A | (forall w, exec p w = m w) /\ (b = true -> only_reads p)}.

Section steps.
  Context {C : Type}.
  Implicit Types b : bool.
  Lemma steps_ret b {A} (a : A) : steps (C := C) b (ret a).
  Proof. by exists (PRet a). Defined.
  Lemma steps_fail b {A} f : steps (C := C) (A := A) b (fail f).
  Proof. by exists (PStop f). Defined.
  Lemma steps_bind b {A B} (m : M C A) (k : A -> M C B) : steps b m -> (forall a, steps b (k a)) -> steps b (bind m k).
  Proof.
    intros [p [Hp Hr]] Hk. exists (pbind p (fun a => proj1_sig (Hk a))). split.
    - intros w. rewrite exec_pbind. unfold bind. rewrite Hp. destruct (m w) as [a w'|]; [|done]. apply (proj2_sig (Hk a)).
    - intros Hb. apply only_reads_pbind; [auto|]. intros a. by apply (proj2_sig (Hk a)).
  Defined.
  Lemma steps_ext b {A} (m m' : M C A) : (forall w, m w = m' w) -> steps b m -> steps b m'.
  Proof. intros He [p [Hp Hr]]. exists p. split; [|done]. intros w. by rewrite Hp. Defined.
  Lemma steps_false {A} (m : M C A) : steps true m -> steps false m.
  Proof. intros [p [Hp _]]. by exists p. Defined.
  Lemma steps_load b a : steps (C := C) b (load a).
  Proof. exists (PLoad a FFreed PRet). split; [|done]. intros w. unfold load, bind. simpl. by destruct (w_heap w !! a). Defined.
  Lemma steps_get_err b : steps (C := C) b get_err.
  Proof. by exists (PGetErr PRet). Defined.
  Lemma steps_has_err b : steps (C := C) b has_err.
  Proof. exists (PGetErr (fun e => PRet (match e with Some _ => true | None => false end))). by split. Defined.
  Lemma steps_assert b {V} (cf : cfg V) x : steps (C := C) b (assert_ cf x).
  Proof. unfold assert_. destruct (c_dbg cf && negb x); [apply steps_fail|apply steps_ret]. Defined.
  Lemma steps_size b {A} (k : nat -> M C A) : (forall n, steps b (k n)) -> steps b (let! h := get_heap in k (size h)).
  Proof.
    intros Hk. exists (PSize (fun n => proj1_sig (Hk n))). split.
    - intros w. simpl. unfold bind. simpl. apply (proj2_sig (Hk _)).
    - intros Hb n. by apply (proj2_sig (Hk n)).
  Defined.
  (** Looking at one cell, with some fault if it is not there. *)
  Lemma steps_peek b {A} a f (k : C -> M C A) : (forall c, steps b (k c)) ->
    steps b (let! h := get_heap in match h !! a with Some c => k c | None => fail f end).
  Proof.
    intros Hk. exists (PLoad a f (fun c => proj1_sig (Hk c))). split.
    - intros w. simpl. unfold bind. simpl. destruct (w_heap w !! a); [|done]. apply (proj2_sig (Hk _)).
    - intros Hb c. by apply (proj2_sig (Hk c)).
  Defined.
  Lemma steps_store a c : steps (C := C) false (store a c).
  Proof. exists (PStore a c (PRet tt)). split; [|done]. intros w. simpl. unfold bind. destruct (store a c w) as [[] ?|] eqn:E; [by rewrite <-E|done]. Defined.
  Lemma steps_free a : steps (C := C) false (free_cell a).
  Proof. exists (PFree a (PRet tt)). split; [|done]. intros w. simpl. unfold bind. by destruct (free_cell a w) as [[] ?|]. Defined.
  Lemma steps_alloc c : steps (C := C) false (alloc_cell c).
  Proof. exists (PNew c PRet). split; [|done]. intros w. simpl. unfold bind. by destruct (alloc_cell c w). Defined.
  Lemma steps_local c : steps (C := C) false (new_local c).
  Proof. by exists (PLocal c PRet). Defined.
  Lemma steps_event : steps (C := C) false next_event.
  Proof. exists (PEvent PRet). split; [|done]. intros w. simpl. unfold bind. by destruct (next_event w). Defined.
  Lemma steps_put_err e : steps (C := C) false (put_err e).
  Proof. by exists (PPutErr e (PRet tt)). Defined.
  Lemma steps_tick_alloc : steps (C := C) false tick_alloc.
  Proof. by exists (PTickAlloc (PRet tt)). Defined.
  Lemma steps_tick_ctor : steps (C := C) false tick_ctor.
  Proof. by exists (PTickCtor (PRet tt)). Defined.
  Lemma steps_construct {V} (cf : cfg V) place assign unplace (rd : M C V) :
    steps false rd -> (forall v, steps (C := C) false (place v)) -> (forall v, steps false (assign v)) -> steps false unplace ->
    steps false (construct cf place assign unplace rd).
  Proof.
    intros Hr Hp Ha Hu. unfold construct.
    destruct (c_kind cf); repeat (first [apply Hr|apply Hp|apply Ha|apply Hu|apply steps_put_err|apply steps_tick_ctor|apply steps_event|apply steps_has_err|apply steps_ret|
      apply steps_bind; intros|match goal with |- steps _ (match ?x with _ => _ end) => destruct x end]).
  Defined.
  Lemma steps_with_local_err {A} (m : M C A) : steps false m -> steps false (with_local_err m).
  Proof. intros Hm. unfold with_local_err. repeat (first [apply Hm|apply steps_get_err|apply steps_put_err|apply steps_ret|apply steps_bind; intros]). Defined.
End steps.

Create HintDb stdb discriminated.
#[global] Hint Resolve steps_ret steps_fail steps_load steps_get_err steps_has_err steps_assert steps_store steps_free
  steps_alloc steps_local steps_event steps_put_err steps_tick_alloc steps_tick_ctor : stdb.
Ltac st_split :=
  match goal with
  | |- steps _ (match ?x with _ => _ end) => destruct x
  | |- steps _ (let _ := _ in _) => cbv zeta
  | |- steps _ (if ?x then _ else _) => destruct x
  end.
Ltac stp :=
  repeat (intros;
    first
    [ solve [eauto 2 with stdb nocore]
    | apply steps_peek
    | apply steps_bind
    | apply steps_construct
    | apply steps_with_local_err
    | st_split ]); intros.
Ltac stpr IH :=
  repeat (intros;
    first
    [ solve [eauto 2 with stdb nocore]
    | apply IH
    | apply steps_peek
    | apply steps_bind
    | apply steps_construct
    | apply steps_with_local_err
    | st_split ]); intros.
