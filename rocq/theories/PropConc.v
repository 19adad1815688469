(** * Property C80: threads that use different objects, threads that only read

    The threads of ConcModel.v take turns between any two accesses to memory.
    Vocabulary: ConcSpec.v.  PropConcVec.v, PropConcList.v and PropConcSet.v
    apply the theorems of this file to the containers. *)
From Verif Require Import Conc.

(** Jobs that use different objects or only read them: whatever the schedule,
    there is no undefined behaviour, and a thread that has finished has the
    result, the error object and the memory that its job has alone, with the
    same failures.  The memory consists of the parts of the threads and of what
    was there besides ([f]). *)
Theorem C80_threads C A (H f : gmap addr C) (js : list (job C A)) sched :
  consists H f (j_mem <$> js) ->
  (forall i k j j', i <> k -> js !! i = Some j -> js !! k = Some j' -> compatible j j') ->
  Forall job_ok js ->
  exists s' gs, crun sched (start H js) = inl s' /\ length (cs_thr s') = length js /\ length gs = length js /\
    consists (cs_mem s') f gs /\
    forall i j t g, js !! i = Some j -> cs_thr s' !! i = Some t -> gs !! i = Some g ->
      ct_stack t ##ₘ g /\
      forall a, finished t a -> exists o w, same_failures o (j_orc j) /\ alone j o = Done a w /\
        w_err w = ct_err t /\ w_allocs w = ct_allocs t /\ w_ctors w = ct_ctors t /\ w_heap w = ct_stack t ∪ g.
Proof.
  intros Hc Hcomp Hok. destruct (crun_ok f js sched (start H js) (j_mem <$> js) Hok) as (s' & gs & Hr & Hp & Hc' & Hl & Ht).
  { by apply start_inv. }
  exists s', gs. split_and!; [done|done|apply Hp|done|]. intros i j t g Hj Hti Hg.
  destruct (Ht i j t g Hj Hti Hg) as (_ & Hd & _ & log & Hsf & Hrep). split; [done|]. intros a Hf.
  exists (log ++ ct_orc t). eexists. split; [done|]. rewrite Hrep. unfold finished in Hf. rewrite Hf. by split.
Qed.
Print Assumptions C80_threads.

(** If every thread keeps getting turns, all of them finish. *)
Theorem C80_ends C A (H f : gmap addr C) (js : list (job C A)) sched :
  consists H f (j_mem <$> js) ->
  (forall i k j j', i <> k -> js !! i = Some j -> js !! k = Some j' -> compatible j j') ->
  Forall job_ok js -> fair (length js) sched ->
  exists n s', crun (sched <$> seq 0 n) (start H js) = inl s' /\ forall t, t ∈ cs_thr s' -> exists a, finished t a.
Proof.
  intros Hc Hcomp Hok Hf. apply (all_done sched (start H js)).
  - intros n. destruct (crun_ok f js (sched <$> seq 0 n) (start H js) (j_mem <$> js) Hok) as (s' & gs & Hr & _); [by apply start_inv|]. by exists s'.
  - intros i m Hi. apply Hf. by rewrite <-(fmap_length (fun j => CThr (j_prog j) (dom (j_mem j)) ∅ (j_orc j) None 0 0)).
Qed.
Print Assumptions C80_ends.

(** ** Threads that create their objects themselves *)

Lemma seen_nothing {C} (H : gmap addr C) n : consists H H (replicate n ∅).
Proof.
  split_and!; [done|..].
  - intros g Hg. apply elem_of_replicate in Hg as [-> _]. split; [apply map_empty_subseteq|apply map_disjoint_empty_r].
  - intros a Ha. by left.
Qed.
Lemma consists_nothing {C} (H f : gmap addr C) gs : consists H f gs -> (forall g, g ∈ gs -> g = ∅) -> H = f.
Proof.
  intros (Hf & Hg & Hc) He. apply map_eq. intros a. destruct (H !! a) as [c|] eqn:Ea.
  - destruct (Hc a) as [[c' Hc']|(g & Hgin & Hga)]; [by rewrite Ea| |].
    + rewrite Hc'. pose proof (lookup_weaken _ _ _ _ Hc' Hf). congruence.
    + rewrite (He g Hgin), lookup_empty in Hga. by destruct Hga.
  - symmetry. by eapply lookup_weaken_None.
Qed.

(** Programs that start without objects and, alone and with the same failures,
    give results in [Q] and leave nothing behind. *)
Theorem C80_programs C A (H : gmap addr C) (ps : list (prog C A)) (orcs : list (list event)) (Q : nat -> A -> Prop) sched :
  length orcs = length ps ->
  (forall i p o o', ps !! i = Some p -> orcs !! i = Some o -> same_failures o' o ->
     runs (exec p) (World ∅ o' None 0 0) (fun a w' => Q i a /\ w_heap w' = ∅)) ->
  exists s', crun sched (start H (zip_with (fun p o => Job p ∅ o) ps orcs)) = inl s' /\ H ⊆ cs_mem s' /\
    (forall i t a, cs_thr s' !! i = Some t -> finished t a -> Q i a) /\
    ((forall t, t ∈ cs_thr s' -> exists a, finished t a) -> cs_mem s' = H).
Proof.
  intros Hlen Hps. set (js := zip_with _ ps orcs).
  assert (Hjl : length js = length ps) by (unfold js; rewrite zip_with_length; lia).
  assert (forall i j, js !! i = Some j -> exists p o, ps !! i = Some p /\ orcs !! i = Some o /\ j = Job p ∅ o) as Hj.
  { intros i j Hi. apply lookup_zip_with_Some in Hi as (p & o & -> & ? & ?). eauto. }
  assert (j_mem <$> js = replicate (length js) ∅) as Hmem.
  { apply list_eq. intros i. rewrite list_lookup_fmap. destruct (js !! i) as [j|] eqn:E.
    - destruct (Hj i j E) as (p & o & _ & _ & ->). symmetry. simpl. apply lookup_replicate. split; [done|by eapply lookup_lt_Some].
    - simpl. symmetry. apply lookup_replicate_None. by apply lookup_ge_None. }
  destruct (C80_threads C A H H js sched) as (s' & gs & Hr & Hls & Hlg & Hc & Ht).
  - rewrite Hmem. apply seen_nothing.
  - intros i k j j' _ Hi Hk. left. destruct (Hj i j Hi) as (p & o & _ & _ & ->). apply map_disjoint_empty_l.
  - apply Forall_lookup. intros i j Hi o Ho. destruct (Hj i j Hi) as (p & o' & Hp & Ho' & ->).
    destruct (Hps i p o' o Hp Ho' Ho) as (a & w & Hr & _). exists a, w. exact Hr.
  - assert (forall i t a, cs_thr s' !! i = Some t -> finished t a -> Q i a /\ exists g, gs !! i = Some g /\ g = ∅) as Hfin.
    { intros i t a Hti Hf.
      assert (Hi : i < length js) by (rewrite <-Hls; by eapply lookup_lt_Some).
      destruct (lookup_lt_is_Some_2 _ _ Hi) as [j Hji]. destruct (lookup_lt_is_Some_2 gs i) as [g Hg]; [lia|].
      destruct (Ht i j t g Hji Hti Hg) as (Hd & Hres). destruct (Hres a Hf) as (o & w & Ho & Ha & _ & _ & _ & Hh).
      destruct (Hj i j Hji) as (p & o' & Hp & Ho' & ->). unfold alone in Ha. simpl in Ha, Ho.
      destruct (Hps i p o' o Hp Ho' Ho) as (a' & w' & Hr' & HQ & Hw).
      assert (Done a w = Done a' w') as [= <- <-] by (exact (eq_trans (eq_sym Ha) Hr')).
      split; [done|]. exists g. split; [done|]. rewrite Hh in Hw. rewrite map_union_comm in Hw by done. by apply map_positive_l in Hw. }
    exists s'. split; [done|]. split; [exact (proj1 Hc)|]. split.
    + intros i t a Hti Hf. by eapply Hfin.
    + intros Hall. eapply consists_nothing; [done|]. intros g [i Hi]%elem_of_list_lookup.
      destruct (lookup_lt_is_Some_2 (cs_thr s') i) as [t Hti]; [rewrite Hls, <-Hlg; by eapply lookup_lt_Some|].
      destruct (Hall t) as [a Hf]; [by eapply elem_of_list_lookup_2|]. destruct (Hfin i t a Hti Hf) as (_ & g' & Hg' & ->). by simplify_eq.
Qed.
Print Assumptions C80_programs.

(** ** Threads that read the same objects *)

Lemma only_reads_state {C A} (p : prog C A) h o o' e n1 n2 a w :
  only_reads p -> exec p (World h o e n1 n2) = Done a w -> w = World h o e n1 n2 /\ exec p (World h o' e n1 n2) = Done a (World h o' e n1 n2).
Proof.
  intros Hp. induction p; simpl in *; try done.
  - intros [= -> <-]. done.
  - destruct (h !! a0); [|done]. apply H. done.
  - unfold bind. simpl. apply H. done.
  - apply H. done.
Qed.

(** Threads that only read, in any memory: whatever the schedule, the memory
    stays as it is and every thread that has finished has read what it would
    have read alone. *)
Theorem C80_readers C A (H : gmap addr C) (ps : list (prog C A)) (ms : list (M C A)) (as_ : list A) sched :
  Forall2 presents ps ms -> Forall only_reads ps ->
  Forall2 (fun m a => m (World H [] None 0 0) = Done a (World H [] None 0 0)) ms as_ ->
  exists s', crun sched (start H ((fun p => Job p H []) <$> ps)) = inl s' /\ cs_mem s' = H /\
    forall i t a, cs_thr s' !! i = Some t -> finished t a -> as_ !! i = Some a.
Proof.
  intros Hps Hro Hms. set (js := (fun p => Job p H []) <$> ps).
  assert (forall i p, ps !! i = Some p -> exists a, as_ !! i = Some a /\ forall o, exec p (World H o None 0 0) = Done a (World H o None 0 0)) as Hrun.
  { intros i p Hp. destruct (Forall2_lookup_l _ _ _ _ _ Hps Hp) as (m & Hm & Hpm). destruct (Forall2_lookup_l _ _ _ _ _ Hms Hm) as (a & Ha & Hd).
    exists a. split; [done|]. intros o. rewrite <-Hpm in Hd. rewrite Forall_lookup in Hro.
    by destruct (only_reads_state p H [] o None 0 0 a _ (Hro i p Hp) Hd). }
  assert (forall i j, js !! i = Some j -> exists p, ps !! i = Some p /\ j = Job p H []) as Hj.
  { intros i j Hi. unfold js in Hi. rewrite list_lookup_fmap in Hi. destruct (ps !! i) as [p|]; simplify_eq/=. by exists p. }
  assert (forall s : csys C A, (forall t, t ∈ cs_thr s -> only_reads (ct_prog t)) -> forall s', crun sched s = inl s' -> cs_mem s' = cs_mem s) as Hmem.
  { clear. induction sched as [|i sched IH]; intros s Hs s' Hr; simpl in Hr; [by simplify_eq|].
    unfold csstep in Hr. destruct (cs_thr s !! i) as [t|] eqn:Ei; [|by apply IH].
    assert (Hrt : only_reads (ct_prog t)) by (by eapply Hs, elem_of_list_lookup_2).
    destruct (cstep (cs_mem s) t) as [[H' t']|] eqn:Ec; [|done].
    assert (H' = cs_mem s /\ only_reads (ct_prog t')) as [-> Ht'].
    { destruct t as [p own st o e n1 n2]. simpl in Hrt. destruct p; simpl in Hrt; try done; cbn -[look] in Ec; try destruct (look _ _ _); simplify_eq; split; simpl; auto. }
    refine (IH (CSys (cs_mem s) (<[i := t']> (cs_thr s))) _ s' Hr). simpl. intros u [k Hk]%elem_of_list_lookup.
    destruct (decide (k = i)) as [->|]; [rewrite list_lookup_insert in Hk by (by eapply lookup_lt_Some); by simplify_eq|].
    rewrite list_lookup_insert_ne in Hk by done. by eapply Hs, elem_of_list_lookup_2. }
  destruct (decide (ps = [])) as [->|Hne].
  { exists (CSys H []). split_and!; [|done|by intros]. simpl. clear. unfold start. simpl. by induction sched. }
  assert (exists p0, p0 ∈ ps) as [p0 Hp0] by (destruct ps as [|p0 ?]; [done|exists p0; left]).
  destruct (C80_threads C A H ∅ js sched) as (s' & gs & Hr & Hls & Hlg & Hc & Ht).
  - split_and!; [apply map_empty_subseteq| |].
    + intros g [j [-> [i Hi]%elem_of_list_lookup]]%elem_of_list_fmap. destruct (Hj i j Hi) as (p & _ & ->). split; [done|apply map_disjoint_empty_l].
    + intros a Ha. right. exists H. split; [|done]. apply elem_of_list_fmap. exists (Job p0 H []). split; [done|]. apply elem_of_list_fmap. eauto.
  - intros i k j j' _ Hi Hk. right. destruct (Hj i j Hi) as (p & Hp & ->). destruct (Hj k j' Hk) as (p' & Hp' & ->).
    rewrite Forall_lookup in Hro. eauto.
  - apply Forall_lookup. intros i j Hi o _. destruct (Hj i j Hi) as (p & Hp & ->). destruct (Hrun i p Hp) as (a & _ & Ha). eexists _, _. apply Ha.
  - exists s'. split_and!; [done| |].
    + apply (Hmem _) in Hr; [done|]. simpl. intros t [j [-> [i Hi]%elem_of_list_lookup]]%elem_of_list_fmap. destruct (Hj i j Hi) as (p & Hp & ->).
      rewrite Forall_lookup in Hro. simpl. eauto.
    + intros i t a Hti Hf. assert (Hi : i < length js) by (rewrite <-Hls; by eapply lookup_lt_Some).
      destruct (lookup_lt_is_Some_2 _ _ Hi) as [j Hji]. destruct (lookup_lt_is_Some_2 gs i) as [g Hg]; [lia|].
      destruct (Ht i j t g Hji Hti Hg) as (_ & Hres). destruct (Hres a Hf) as (o & w & _ & Ha & _).
      destruct (Hj i j Hji) as (p & Hp & ->). destruct (Hrun i p Hp) as (a' & Ha' & Hall). unfold alone in Ha. simpl in Ha. rewrite Hall in Ha. by simplify_eq.
Qed.
Print Assumptions C80_readers.

(** ** The two forms used for the containers *)

Lemma separate_threads {C A T} (life : T -> M C A) (spec : T -> A -> Prop) H (ts : list (T * list event)) (ps : list (prog C A)) sched :
  (forall t w, t ∈ ts.*1 -> w_heap w = ∅ -> runs (life t) w (fun r w' => spec t r /\ w_heap w' = ∅)) ->
  Forall2 (fun p t => presents p (life t.1)) ps ts ->
  exists s', crun sched (start H (zip_with (fun p t => Job p ∅ t.2) ps ts)) = inl s' /\ H ⊆ cs_mem s' /\
    (forall i t th r, ts !! i = Some t -> cs_thr s' !! i = Some th -> finished th r -> spec t.1 r) /\
    ((forall th, th ∈ cs_thr s' -> exists r, finished th r) -> cs_mem s' = H).
Proof.
  intros Hl Hps.
  destruct (C80_programs C A H ps ts.*2 (fun i r => forall t, ts !! i = Some t -> spec t.1 r) sched) as (s' & Hr & Hsub & Hfin & Hall).
  - rewrite fmap_length. symmetry. by eapply Forall2_length.
  - intros i p o o' Hp Ho Hsf. destruct (Forall2_lookup_l _ _ _ _ _ Hps Hp) as (t & Ht & Hpt).
    destruct (Hl t.1 (World ∅ o' None 0 0)) as (r & w' & Hr & Hs & Hh); [by eapply elem_of_list_fmap_1, elem_of_list_lookup_2|done|].
    exists r, w'. rewrite Hpt. split; [done|]. split; [intros t' Ht'; by simplify_eq|done].
  - exists s'. rewrite zip_with_fmap_r in Hr. split; [done|]. split; [done|]. split; [|done]. intros i t th r Ht Hth Hf. by eapply Hfin.
Qed.

Lemma shared_readers {C A T} (call : T -> M C A) (spec : T -> option A) H (cs : list T) (ps : list (prog C A)) sched :
  (forall c a, spec c = Some a -> call c (World H [] None 0 0) = Done a (World H [] None 0 0)) ->
  Forall (fun c => is_Some (spec c)) cs ->
  Forall2 (fun p c => presents p (call c) /\ only_reads p) ps cs ->
  exists s', crun sched (start H ((fun p => Job p H []) <$> ps)) = inl s' /\ cs_mem s' = H /\
    forall i c th a, cs !! i = Some c -> cs_thr s' !! i = Some th -> finished th a -> spec c = Some a.
Proof.
  intros Hs Hleg Hps.
  assert (exists as_, Forall2 (fun c a => spec c = Some a) cs as_) as [as_ Has].
  { clear -Hleg. induction Hleg as [|c cs [a Ha] _ [as_ IH]]; [by exists []|exists (a :: as_); by constructor]. }
  destruct (C80_readers _ _ H ps (call <$> cs) as_ sched) as (s' & Hr & Hm & Hf).
  - apply Forall2_fmap_r. eapply Forall2_impl; [done|]. by intros ?? [? _].
  - eapply Forall2_Forall_l; [done|]. apply Forall_forall. by intros ? _ ? [_ ?].
  - apply Forall2_fmap_l. eapply Forall2_impl; [done|]. apply Hs.
  - exists s'. split; [done|]. split; [done|]. intros i c th a Hc Hth Hfin. pose proof (Hf i th a Hth Hfin) as Ha.
    destruct (Forall2_lookup_l _ _ _ _ _ Has Hc) as (a' & Ha' & ?). by simplify_eq.
Qed.

(** ** Examples: the computed end of a run *)

(** Turns for the threads 0 and 1, one after the other. *)
Definition round_robin (n : nat) : list nat := (fun k => k mod 2) <$> seq 0 n.
(** The results of the threads and the memory. *)
Definition results {C A} (r : csys C A + fault) : option (list (option A) * list (addr * C)) :=
  match r with
  | inl s => Some ((fun t => match ct_prog t with PRet a => Some a | _ => None end) <$> cs_thr s, map_to_list (cs_mem s))
  | inr _ => None
  end.

(** Two threads, each with an object of its own, and a third part of the
    memory: the hypotheses of C80_threads and of C80_ends hold. *)
Definition incr (a : addr) : prog nat nat := PLoad a FFreed (fun n => PStore a (S n) (PLoad a FFreed (fun m => PRet m))).
Example C80_threads_example :
  let H := {[ 1%positive := 5; 2%positive := 7; 3%positive := 9 ]} : gmap addr nat in
  let js := [Job (incr 1) {[ 1%positive := 5 ]} []; Job (incr 2) {[ 2%positive := 7 ]} []] in
  consists H {[ 3%positive := 9 ]} (j_mem <$> js) /\
  (forall i k j j', i <> k -> js !! i = Some j -> js !! k = Some j' -> compatible j j') /\
  Forall job_ok js /\ fair (length js) (fun k => k mod 2) /\
  results (crun (round_robin 6) (start H js)) = Some ([Some 6; Some 8], [(1%positive, 6); (2%positive, 8); (3%positive, 9)]).
Proof.
  split.
  { split; [apply (bool_decide_unpack _); by vm_compute|]. split.
    - intros g Hg. repeat (apply elem_of_cons in Hg as [->|Hg]); [..|by apply elem_of_nil in Hg]; simpl;
        (split; [apply (bool_decide_unpack _); by vm_compute|apply map_disjoint_dom; rewrite !dom_singleton_L; set_solver]).
    - intros a [c Hc]. repeat (apply lookup_insert_Some in Hc as [[<- <-]|[_ Hc]] || apply lookup_singleton_Some in Hc as [<- <-]).
      + right. eexists. split; [left|by eexists].
      + right. eexists. split; [right; left|by eexists].
      + left. by eexists. }
  split.
  { intros [|[|i]] [|[|k]] j j' Hne Hj Hk; simplify_eq/=; left; apply map_disjoint_dom; simpl; rewrite !dom_singleton_L; set_solver. }
  split; [repeat constructor; intros o _; by eexists _, _|].
  split; [|vm_compute; reflexivity].
  intros i m Hi. exists (2 * m + i). split; [lia|]. rewrite Nat.add_comm, Nat.mul_comm, Nat.mod_add by done. by apply Nat.mod_small.
Qed.

(** Without disjointness: two threads add one to the same number, and one addition is lost. *)
Example C80_lost_update :
  let H := {[ 1%positive := 5 ]} : gmap addr nat in
  results (crun (round_robin 6) (start H [Job (incr 1) H []; Job (incr 1) H []])) = Some ([Some 6; Some 6], [(1%positive, 6)]).
Proof. by vm_compute. Qed.
