(** * Property C85 for sets *)
From Verif Require Import SameSpec RbDetHist RoundsSpec PropSet PropRounds PropAsksSet PropConc PropConcSet PropSame.

(** ** What a call reports *)

Lemma one_node_outcome V (cf : cfg V) o e o' : (e, o') = one_node cf o -> exists k, outcome cf 1 o k e.
Proof.
  intros Hn. assert (exists k, n_nodes cf 1 o = (k, e, o')) as [k Hk].
  { simpl. rewrite <-Hn. destruct e as [e|]; eauto. }
  exists k. by eapply n_nodes_outcome.
Qed.

(** Insertion makes at most one element: none if the value is there, and then
    the answers of the environment do not matter and are not used up.  With
    and without a hint, and emplacement.  A copy makes as many elements as the
    other set has. *)
Theorem C85_set_adds V (cf : cfg V) comp o xs hf w :
  swo comp -> set_is comp o xs hf w -> w_err w = None ->
  (forall x v i, targ_is xs hf x v ->
     runs (insert_unique cf comp o x) w (fun _ w' =>
       (absent comp v xs.*2 -> exists k, outcome cf 1 (w_orc w) k (w_err w')) /\ (~ absent comp v xs.*2 -> w' = w)) /\
     runs (insert_unique_at cf comp o (tpos (t_hdr o) xs i) x) w (fun _ w' =>
       (absent comp v xs.*2 -> exists k, outcome cf 1 (w_orc w) k (w_err w')) /\ (~ absent comp v xs.*2 -> w' = w)) /\
     runs (emplace_unique cf comp o x) w (fun _ w' => exists k, outcome cf 1 (w_orc w) k (w_err w')) /\
     runs (emplace_hint_unique cf comp o (tpos (t_hdr o) xs i) x) w (fun _ w' => exists k, outcome cf 1 (w_orc w) k (w_err w'))) /\
  (forall other ys hv2 hf', hf = hv2 ∪ hf' -> set_own comp (t_alloc other) (t_hdr other) ys hv2 -> hv2 ##ₘ hf' ->
     runs (t_copy cf o other) w (fun _ w' => exists k, outcome cf (length ys) (w_orc w) k (w_err w'))).
Proof.
  intros Hswo Hset He. split.
  - intros x v i Hx. pose proof (C78_set_insert V cf comp o xs hf w x v i Hswo Hset He Hx) as [Hat Hin].
    apply set_is_sin in Hset as [t Hs]. pose proof (targ_rd _ _ _ _ _ _ _ _ Hs Hx) as Hrd.
    assert (forall P : Prop, (exists u, u ∈ xs.*2 /\ equivalent comp u v) -> absent comp v xs.*2 -> P) as Hno.
    { intros P (u & Hu & Hue) Hab. by destruct (Hab u Hu). }
    split_and!.
    + eapply runs_mono; [eapply (runs_both _ _ (fun _ w' => absent comp v xs.*2 -> exists k, outcome cf 1 (w_orc w) k (w_err w'))); [|exact Hin]|].
      2: { intros a w' [H1 [_ H2]]. done. }
      eapply insert_unique_spec; [done|exact Hs|done|done| | |].
      * intros c pre post h' t' orc -> Hc Hs' Hmk _. apply tmakes_create_node in Hmk; [|done]. by eapply one_node_outcome.
      * intros j c u Hj H1 H2. apply Hno. exists u. split; [|done]. apply elem_of_list_fmap. exists (c, u). split; [done|by eapply elem_of_list_lookup_2].
      * intros w' e Hw' He' Hne Hfar Hmk _. apply tmakes_create_node in Hmk; [|done]. by eapply one_node_outcome.
    + eapply runs_mono; [eapply (runs_both _ _ (fun _ w' => absent comp v xs.*2 -> exists k, outcome cf 1 (w_orc w) k (w_err w'))); [|exact Hat]|].
      2: { intros a w' [H1 [_ H2]]. done. }
      eapply insert_at_spec; [done|exact Hs|done|done| | |].
      * intros c pre post h' t' orc -> Hc Hs' Hmk _. apply tmakes_create_node in Hmk; [|done]. by eapply one_node_outcome.
      * intros j c u Hj H1 H2. apply Hno. exists u. split; [|done]. apply elem_of_list_fmap. exists (c, u). split; [done|by eapply elem_of_list_lookup_2].
      * intros w' e Hw' He' Hne Hfar Hmk _. apply tmakes_create_node in Hmk; [|done]. by eapply one_node_outcome.
    + eapply (runs_fact _ _ (fun _ _ => True)); [by eapply emplace_spec|]. intros a w' Hd. eapply one_node_outcome. by eapply tmakes_emplace.
    + eapply (runs_fact _ _ (fun _ _ => True)); [by eapply emplace_hint_spec|]. intros a w' Hd. eapply one_node_outcome. by eapply tmakes_emplace_hint.
  - intros other ys hv2 hf' -> Ho2 Hd. pose proof (C78_set_copy V cf comp o other xs ys hv2 hf' w Hset Ho2 Hd He) as (u & w' & Hr & Has).
    exists u, w'. split; [done|]. destruct (grew_asked cf _ _ _ (grows_t_copy cf _ _ _ _ _ He Hr) Has) as [k Hk].
    exists k. by eapply n_nodes_outcome.
Qed.
Print Assumptions C85_set_adds.

(** ** Whole programs

    A client creates [k] sets, makes any calls on them, visits all elements
    and destroys the sets.  It is run in two worlds with different memory and
    different addresses, where the same requests are refused: all calls report
    and answer the same and the same elements are visited. *)
Lemma runs_set_life_det V (cf : cfg V) comp k ops w : swo comp ->
  runs (set_life cf comp k ops) w (fun r w' => exists ls,
    sops_det cf comp ops (replicate k []) (w_orc w) r.1 ls /\ r.2 = (fun l => (l, reverse l)) <$> ls).
Proof.
  intros Hswo. unfold set_life, set_program. rbind. rbind.
  eapply (new_sets_spec cf comp k w (w_heap w) ∅ []); [done|apply heap_whole|].
  intros hds hv' w1 Hl Ho Hh Horc. rewrite app_nil_r in Ho.
  assert (srow cf comp hds (replicate k []) hv') as Hr. { split; [by rewrite replicate_length|done]. }
  rbind. eapply det_exec_sops; [done|exact Hr|exact Hh|]. intros rs xss' hv2 w' Hr' Hh' Hs. apply runs_ret. cbn [fst snd].
  rbind. apply (walk_all_spec _ (vals xss')).
  { unfold vals. rewrite !fmap_length. apply Hr'. }
  { intros i o l Hi Hls. rewrite list_lookup_fmap in Hi. destruct (hds !! i) as [h|] eqn:Eh; simplify_eq/=.
    rewrite vals_lookup in Hls. destruct (xss' !! i) as [xs|] eqn:Ex; simplify_eq/=.
    destruct (srow_shows cf comp _ _ _ _ _ _ _ _ Hswo Hr' Hh' Eh Ex) as (_ & _ & _ & ? & ? & _). done. }
  rbind. eapply destroy_sets_spec; [exact Hr'|exact Hh'|]. intros w2 Hw2. apply runs_ret. cbn [fst snd].
  exists (vals xss'). split; [|done]. rewrite Horc in Hs. unfold vals in Hs at 1. by rewrite fmap_replicate in Hs.
Qed.

Theorem C85_sets V (cf : cfg V) comp k ops w1 w2 :
  swo comp -> same_failures (w_orc w1) (w_orc w2) ->
  exists r w1' w2', set_life cf comp k ops w1 = Done r w1' /\ set_life cf comp k ops w2 = Done r w2'.
Proof.
  intros Hw Hs. destruct (runs_set_life_det V cf comp k ops w1 Hw) as ([r1 v1] & w1' & H1 & ls1 & Hd1 & Hv1).
  destruct (runs_set_life_det V cf comp k ops w2 Hw) as ([r2 v2] & w2' & H2 & ls2 & Hd2 & Hv2). simpl in *.
  destruct (sops_det_unique cf comp ops (replicate k []) (w_orc w1) (w_orc w2) r1 r2 ls1 ls2) as [-> ->]; try done.
  - apply Forall_replicate. intros i j x y _ Hi. done.
  - subst v1 v2. eauto.
Qed.
Print Assumptions C85_sets.

(** The same for the threads of C80: whatever the other threads do, and in
    whatever order they run, a thread gets the answers it would get alone. *)
Theorem C85_set_threads V (cf : cfg V) comp H (ts : list (nat * list (sop V) * list event)) ps sched :
  swo comp -> Forall2 (fun p t => presents p (set_life cf comp t.1.1 t.1.2)) ps ts ->
  exists s', crun sched (start H (zip_with (fun p t => Job p ∅ t.2) ps ts)) = inl s' /\
    forall i t th r w, ts !! i = Some t -> cs_thr s' !! i = Some th -> finished th r -> same_failures (w_orc w) t.2 ->
      exists w', set_life cf comp t.1.1 t.1.2 w = Done r w'.
Proof.
  intros Hw Hps.
  destruct (C80_programs _ _ H ps ts.*2 (fun i r => forall t w, ts !! i = Some t -> same_failures (w_orc w) t.2 ->
    exists w', set_life cf comp t.1.1 t.1.2 w = Done r w') sched) as (s' & Hr & _ & Hfin & _).
  - rewrite fmap_length. symmetry. by eapply Forall2_length.
  - intros i p o o' Hp Ho Hsf. destruct (Forall2_lookup_l _ _ _ _ _ Hps Hp) as (t & Ht & Hpt).
    rewrite list_lookup_fmap, Ht in Ho. simplify_eq/=.
    destruct (set_life_spec cf comp t.1.1 t.1.2 (World ∅ o' None 0 0) Hw) as (r & w' & Hr & Hh & _).
    exists r, w'. rewrite Hpt. split; [done|]. split; [|done]. intros t' w Ht' Hst. simplify_eq.
    destruct (C85_sets V cf comp t.1.1 t.1.2 w (World ∅ o' None 0 0)) as (r2 & w2 & w3 & H2 & H3); [done| |].
    { simpl. intros g c. rewrite (Hst g c). symmetry. apply Hsf. }
    rewrite Hr in H3. simplify_eq. eauto.
  - exists s'. rewrite zip_with_fmap_r in Hr. split; [done|]. intros i t th r w Ht Hth Hf Hst. by eapply Hfin.
Qed.
Print Assumptions C85_set_threads.

(** A range of which the third value is there already and the fourth cannot be
    built, a refused insertion, a lookup and an erasure; two worlds with
    different addresses and different memory. *)
#[local] Instance sans_eq : EqDecision (sans nat).
Proof. solve_decision. Defined.
Definition same_sops : list (sop nat) :=
  [SoInsertVals 0 [30; 10; 30; 20]; SoInsert 0 (HVal 5); SoCopy 1 0; SoFind 1 (HElem 0 1); SoEraseKey 0 (HVal 10)].
Definition same_sorc (a : addr) : list event :=
  [EvOk a; EvOk 1; EvOk (a + 1)%positive; EvOk 1; EvOk a; EvFail 9; EvFail 0; EvOk (a + 3)%positive].
Example C85_set_example :
  same_failures (same_sorc 7) (same_sorc 70) /\
  runs (set_life tcD nat_lt 2 same_sops) (tw0 (same_sorc 7)) (fun r _ => r =
    ([(Some (EElem 9), AnsNone); (Some EBadAlloc, AnsPair None true); (None, AnsNone); (None, AnsIter (Some 30)); (None, AnsNum 1)],
     [([30], [30]); ([10; 30], [30; 10])])) /\
  runs (set_life tcD nat_lt 2 same_sops) (tw1 (same_sorc 70)) (fun r _ => r =
    ([(Some (EElem 9), AnsNone); (Some EBadAlloc, AnsPair None true); (None, AnsNone); (None, AnsIter (Some 30)); (None, AnsNum 1)],
     [([30], [30]); ([10; 30], [30; 10])])).
Proof.
  split_and!; [|by compute_run..].
  intros k c. unfold same_sorc. do 8 (destruct k as [|k]; [simpl; split; intros; simplify_eq; done|]). done.
Qed.
