(** * Property C85 for trees that keep equal values *)
From Verif Require Import SameSpec RbDetMulti RoundsSpec PropSet PropMulti PropRounds PropConc PropConcSet PropSame PropSameSet.

(** ** What a call reports

    Every insertion makes one element, with and without a hint, in front of
    the equal ones or behind them; what it reports is settled by the answers of
    the environment. *)
Theorem C85_multi_adds V (cf : cfg V) comp o x hint vs w w' :
  w_err w = None ->
  (forall r, insert_equal cf comp o x w = Done r w' -> exists k, outcome cf 1 (w_orc w) k (w_err w')) /\
  (forall r, insert_equal_lower cf comp o x w = Done r w' -> exists k, outcome cf 1 (w_orc w) k (w_err w')) /\
  (forall r, insert_equal_at cf comp o hint x w = Done r w' -> exists k, outcome cf 1 (w_orc w) k (w_err w')) /\
  (forall r, emplace_equal cf comp o x w = Done r w' -> exists k, outcome cf 1 (w_orc w) k (w_err w')) /\
  (forall r, emplace_hint_equal cf comp o hint x w = Done r w' -> exists k, outcome cf 1 (w_orc w) k (w_err w')) /\
  (forall r, emplace_equal_all cf comp o vs w = Done r w' -> exists k, outcome cf (length vs) (w_orc w) k (w_err w')).
Proof.
  intros He. split_and!; intros r Hr.
  - eapply one_node_outcome. by eapply tmakes_insert_equal.
  - eapply one_node_outcome. by eapply tmakes_insert_equal_lower.
  - eapply one_node_outcome. by eapply tmakes_insert_equal_at.
  - eapply one_node_outcome. by eapply tmakes_emplace_equal.
  - eapply one_node_outcome. by eapply tmakes_emplace_hint_equal.
  - destruct (emplace_all_makes cf comp o vs w r w' He Hr) as [k Hk]. exists k. by eapply n_nodes_outcome.
Qed.
Print Assumptions C85_multi_adds.

(** Emplacing several values: those that are in the tree afterwards are the
    ones that were complete before the first refusal, and no others. *)
Theorem C85_multi_emplace_all V (cf : cfg V) comp o xs hf w args vs :
  swo comp -> mset_is comp o xs hf w -> Forall2 (targ_is xs hf) args vs -> w_err w = None ->
  runs (emplace_equal_all cf comp o args) w (fun _ w' => exists k xs',
    outcome cf (length vs) (w_orc w) k (w_err w') /\ mset_is comp o xs' hf w' /\ xs'.*2 ≡ₚ xs.*2 ++ take k vs).
Proof.
  intros Hswo Hm Ha He.
  assert (runs (emplace_equal_all cf comp o args) w (fun _ w' => exists k xs',
    n_nodes cf (length vs) (w_orc w) = (k, w_err w', w_orc w') /\ mset_is comp o xs' hf w' /\ xs'.*2 ≡ₚ xs.*2 ++ take k vs)) as Hr.
  2: { eapply runs_mono; [exact Hr|]. intros _ w' (k & xs' & Hn & H1 & H2). exists k, xs'. split; [by eapply n_nodes_outcome|done]. }
  revert xs vs w Hm Ha He. induction args as [|x args IH]; intros xs vs w Hm Ha He.
  - apply Forall2_nil_inv_l in Ha as ->. apply runs_ret. exists 0, xs. simpl. rewrite app_nil_r, He. by split_and!.
  - apply Forall2_cons_inv_l in Ha as (v & vs' & Hx & Ha & ->). simpl emplace_equal_all. rbind.
    destruct (C64_emplace_last V cf comp o xs hf w x v) as (it & w1 & Hd & Hput); [done..|].
    pose proof (tmakes_emplace_equal cf comp _ _ _ _ _ He Hd) as Hmk.
    exists it, w1. split; [exact Hd|]. rbind. apply runs_has_err. unfold put_at in Hput.
    destruct (w_err w1) as [e|] eqn:He1.
    + destruct Hput as (Hne & _ & Hh). apply runs_ret. exists 0, xs. simpl. rewrite app_nil_r, He1, <-Hmk. split_and!; [done| |done].
      apply mset_is_sin. rewrite Hh. by apply mset_is_sin.
    + destruct Hput as (j & Hpl & Hit & Hm1 & _). simpl.
      assert (xs `sublist_of` take j xs ++ (it, v) :: drop j xs) as Hsub.
      { rewrite <-(take_drop j xs) at 1. by apply sublist_app, sublist_cons. }
      assert (Forall2 (targ_is (take j xs ++ (it, v) :: drop j xs) hf) args vs') as Ha'.
      { eapply Forall2_impl; [exact Ha|]. intros [y|a] u; simpl; [done|]. intros [Hin|Hin]; [left|by right].
        by eapply elem_of_submseteq; [exact Hin|apply sublist_submseteq]. }
      eapply runs_mono; [exact (IH _ vs' w1 Hm1 Ha' He1)|]. intros _ w' (k & xs' & H1 & H2 & H3). exists (S k), xs'.
      rewrite <-Hmk, H1. split_and!; [done|done|]. rewrite H3. simpl.
      rewrite fmap_app, fmap_cons. simpl. rewrite <-(take_drop j xs) at 3. rewrite fmap_app. solve_Permutation.
Qed.
Print Assumptions C85_multi_emplace_all.

(** A tree with six elements; the second of three constructions is refused. *)
Example C85_multi_emplace_example :
  mset_is tens mxO mxX ∅ (mw1 [EvOk 40; EvOk 1; EvOk 41; EvFail 9]) /\
  Forall2 (targ_is mxX ∅) [TARef 3; TAVal 31; TAVal 35] [25; 31; 35] /\
  first_failure [EvOk 40; EvOk 1; EvOk 41; EvFail 9] 3 9 /\
  runs (do! emplace_equal_all mcD tens mxO [TARef 3; TAVal 31; TAVal 35] in t_walk mxO) (mw1 [EvOk 40; EvOk 1; EvOk 41; EvFail 9])
    (fun l w' => l = [12; 25; 21; 28; 25; 33; 40] /\ w_err w' = Some (EElem 9)).
Proof.
  split_and!; [apply C64_example| | |by compute_run].
  - by repeat constructor.
  - split; [done|]. intros [|[|[|g]]] c Hg; try done. lia.
Qed.

(** ** Whole programs *)
Lemma runs_multi_life_det V (cf : cfg V) comp k ops w : swo comp ->
  runs (multi_life cf comp k ops) w (fun r w' => exists ls,
    mops_det cf comp ops (replicate k []) (w_orc w) r.1 ls /\ r.2 = (fun l => (l, reverse l)) <$> ls).
Proof.
  intros Hswo. unfold multi_life, multi_program. rbind. rbind.
  eapply (new_sets_spec cf (wk comp) k w (w_heap w) ∅ []); [done|apply heap_whole|].
  intros hds hv' w1 Hl Ho Hh Horc. rewrite app_nil_r in Ho.
  assert (srow cf (wk comp) hds (replicate k []) hv') as Hr. { split; [by rewrite replicate_length|done]. }
  rbind. eapply det_exec_mops; [done|exact Hr|exact Hh|]. intros rs xss' hv2 w' Hr' Hh' Hs. apply runs_ret. cbn [fst snd].
  rbind. apply (walk_all_spec _ (vals xss')).
  { unfold vals. rewrite !fmap_length. apply Hr'. }
  { intros i o l Hi Hls. rewrite list_lookup_fmap in Hi. destruct (hds !! i) as [h|] eqn:Eh; simplify_eq/=.
    rewrite vals_lookup in Hls. destruct (xss' !! i) as [xs|] eqn:Ex; simplify_eq/=.
    destruct (mrow_shows cf comp _ _ _ _ _ _ _ _ Hswo Hr' Hh' Eh Ex) as (_ & _ & _ & ? & ? & _). done. }
  rbind. eapply destroy_sets_spec; [exact Hr'|exact Hh'|]. intros w2 Hw2. apply runs_ret. cbn [fst snd].
  exists (vals xss'). split; [|done]. rewrite Horc in Hs. unfold vals in Hs at 1. by rewrite fmap_replicate in Hs.
Qed.

(** A client creates [k] trees, makes any calls on them, visits all elements
    and destroys the trees.  It is run in two worlds with different memory and
    different addresses, where the same requests are refused: all calls report
    and answer the same and the same elements are visited in the same order. *)
Theorem C85_multis V (cf : cfg V) comp k ops w1 w2 :
  swo comp -> same_failures (w_orc w1) (w_orc w2) ->
  exists r w1' w2', multi_life cf comp k ops w1 = Done r w1' /\ multi_life cf comp k ops w2 = Done r w2'.
Proof.
  intros Hw Hs. destruct (runs_multi_life_det V cf comp k ops w1 Hw) as ([r1 v1] & w1' & H1 & ls1 & Hd1 & Hv1).
  destruct (runs_multi_life_det V cf comp k ops w2 Hw) as ([r2 v2] & w2' & H2 & ls2 & Hd2 & Hv2). simpl in *.
  destruct (mops_det_unique cf comp ops (replicate k []) (w_orc w1) (w_orc w2) r1 r2 ls1 ls2) as [-> ->]; try done.
  subst v1 v2. eauto.
Qed.
Print Assumptions C85_multis.

(** The same for the threads of C80. *)
Theorem C85_multi_threads V (cf : cfg V) comp H (ts : list (nat * list (mop V) * list event)) ps sched :
  swo comp -> Forall2 (fun p t => presents p (multi_life cf comp t.1.1 t.1.2)) ps ts ->
  exists s', crun sched (start H (zip_with (fun p t => Job p ∅ t.2) ps ts)) = inl s' /\
    forall i t th r w, ts !! i = Some t -> cs_thr s' !! i = Some th -> finished th r -> same_failures (w_orc w) t.2 ->
      exists w', multi_life cf comp t.1.1 t.1.2 w = Done r w'.
Proof.
  intros Hw Hps.
  destruct (C80_programs _ _ H ps ts.*2 (fun i r => forall t w, ts !! i = Some t -> same_failures (w_orc w) t.2 ->
    exists w', multi_life cf comp t.1.1 t.1.2 w = Done r w') sched) as (s' & Hr & _ & Hfin & _).
  - rewrite fmap_length. symmetry. by eapply Forall2_length.
  - intros i p o o' Hp Ho Hsf. destruct (Forall2_lookup_l _ _ _ _ _ Hps Hp) as (t & Ht & Hpt).
    rewrite list_lookup_fmap, Ht in Ho. simplify_eq/=.
    destruct (multi_life_spec cf comp t.1.1 t.1.2 (World ∅ o' None 0 0) Hw) as (r & w' & Hr & Hh & _).
    exists r, w'. rewrite Hpt. split; [done|]. split; [|done]. intros t' w Ht' Hst. simplify_eq.
    destruct (C85_multis V cf comp t.1.1 t.1.2 w (World ∅ o' None 0 0)) as (r2 & w2 & w3 & H2 & H3); [done| |].
    { simpl. intros g c. rewrite (Hst g c). symmetry. apply Hsf. }
    rewrite Hr in H3. simplify_eq. eauto.
  - exists s'. rewrite zip_with_fmap_r in Hr. split; [done|]. intros i t th r w Ht Hth Hf Hst. by eapply Hfin.
Qed.
Print Assumptions C85_multi_threads.

(** Equal elements (the order compares the tens), a value that cannot be built
    in the middle of a range, a refused insertion, a copy, a hint and an
    erasure; two worlds with different addresses. *)
#[local] Instance mans_eq : EqDecision (mans nat).
Proof. solve_decision. Defined.
Definition same_mops : list (mop nat) :=
  [MoEmplaceVals 0 [31; 12; 35; 20]; MoInsert 0 (HVal 5); MoInsertHint 0 1 (HVal 33); MoCopy 1 0; MoRange 1 (HElem 0 1); MoEraseKey 0 (HVal 39)].
Definition same_morc (a : addr) : list event :=
  [EvOk a; EvOk 1; EvOk (a + 1)%positive; EvOk 1; EvOk (a + 9)%positive; EvOk 1; EvOk a; EvFail 9; EvFail 0; EvOk (a + 3)%positive].
Definition same_mans : list (option error * mans nat) * list (list nat * list nat) :=
  ([(Some (EElem 9), MsNone); (Some EBadAlloc, MsIter None); (None, MsIter (Some 33)); (None, MsNone); (None, MsList [33; 31; 35]); (None, MsNum 3)],
   [([12], [12]); ([12; 33; 31; 35], [35; 31; 33; 12])]).
Example C85_multi_example :
  swo tens /\ same_failures (same_morc 7) (same_morc 70) /\
  runs (multi_life mcD tens 2 same_mops) (World ∅ (same_morc 7) None 0 0) (fun r _ => r = same_mans) /\
  runs (multi_life mcD tens 2 same_mops) (World ∅ (same_morc 70) None 5 5) (fun r _ => r = same_mans).
Proof.
  split_and!; [apply tens_swo| |by compute_run..].
  intros k c. unfold same_morc. do 10 (destruct k as [|k]; [simpl; split; intros; simplify_eq; done|]). done.
Qed.
