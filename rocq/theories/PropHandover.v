(** * Property C82: containers handed from thread to thread; vectors

    Vocabulary: Handover.v. *)
From Verif Require Import VecExtra VecRow PropVector ConcVec PropConc PropConcVec Handover.

(** ** Vectors *)

Section vectors.
  Context {V : Type} (cf : cfg V).
  Notation mem := (gmap addr (vblock V)).

  (** The address of the storage of a vector, of several vectors. *)
  Definition storage (v : vec_obj) : gset addr := match m_start v with Null => ∅ | Ptr b _ => {[b]} end.
  Definition storages (vs : list vec_obj) : gset addr := ⋃ (storage <$> vs).
  (** The vectors of [ms], dealt out anew in any way. *)
  Definition vec_deal (_ : mem) (ms ms' : list (list vec_obj * gset addr)) : Prop :=
    concat ms.*1 ≡ₚ concat ms'.*1 /\ Forall (fun m => m.2 = storages m.1) ms'.
  (** Every vector keeps its elements. *)
  Definition vec_deal_spec (ss : list (list vec_obj)) (xs : list (list (list V))) (ss' : list (list vec_obj)) (ys : list (list (list V))) : Prop :=
    Forall2 (fun s y => length s = length y) ss' ys /\ zip (concat ss) (concat xs) ≡ₚ zip (concat ss') (concat ys).

  Lemma row_blocks vs ls h : row_own cf vs ls h -> dom h = storages vs.
  Proof.
    revert ls h. induction vs as [|v vs IH]; intros [|l ls] h; simpl; try done; [by intros ->; rewrite dom_empty_L|].
    intros (h1 & h2 & (Ha & cap & Ho) & Hr & Hd & ->). rewrite dom_union_L, (IH _ _ Hr). unfold storages. simpl. f_equal.
    unfold storage. destruct Ho as [(-> & _ & _ & _ & _ & ->)|(b & -> & _ & _ & _ & _ & ->)]; [by rewrite dom_empty_L|by rewrite dom_singleton_L].
  Qed.

  Definition fown (ps : list (vec_obj * list V)) (h : mem) : Prop := row_own cf ps.*1 ps.*2 h.
  Lemma fown_perm ps qs h : ps ≡ₚ qs -> fown ps h -> fown qs h.
  Proof.
    intros Hp. revert h. induction Hp as [|[v l] ps qs Hp IH|[v l] [v' l'] ps|ps qs rs _ IH1 _ IH2]; intros h; unfold fown in *; simpl; [done|..|auto].
    - intros (h1 & h2 & Ho & Hr & Hd & ->). exists h1, h2. eauto.
    - intros (h1 & ? & Ho & (h2 & h3 & Ho2 & Hr & Hd2 & ->) & Hd & ->). apply map_disjoint_union_r in Hd as [Hd1 Hd3].
      exists h2, (h1 ∪ h3). split_and!; [done|by exists h1, h3|by apply map_disjoint_union_r|].
      rewrite !(assoc_L (∪)). f_equal. by apply map_union_comm.
  Qed.
  Lemma fown_app ps qs h : fown (ps ++ qs) h <-> exists h1 h2, fown ps h1 /\ fown qs h2 /\ h1 ##ₘ h2 /\ h = h1 ∪ h2.
  Proof.
    revert h. induction ps as [|[v l] ps IH]; intros h; unfold fown in *; simpl.
    - split.
      + intros Ho. exists ∅, h. split_and!; [done|done|apply map_disjoint_empty_l|by rewrite (left_id_L ∅ (∪))].
      + intros (h1 & h2 & -> & Ho & _ & ->). by rewrite (left_id_L ∅ (∪)).
    - split.
      + intros (h1 & h2 & Ho & (h3 & h4 & H3 & H4 & Hd34 & ->)%IH & Hd & ->). apply map_disjoint_union_r in Hd as [Hd3 Hd4].
        exists (h1 ∪ h3), h4. split_and!; [by exists h1, h3|done|by apply map_disjoint_union_l|by rewrite (assoc_L (∪))].
      + intros (? & h4 & (h1 & h3 & Ho & H3 & Hd13 & ->) & H4 & Hd & ->). apply map_disjoint_union_l in Hd as [Hd1 Hd3].
        exists h1, (h3 ∪ h4). split_and!; [done|apply IH; by exists h3, h4|by apply map_disjoint_union_r|by rewrite (assoc_L (∪))].
  Qed.
End vectors.

Section vectors2.
  Context {V : Type} (cf : cfg V).
  Notation mem := (gmap addr (vblock V)).
  Lemma rows_merge (ps : list (list vec_obj * list (list V))) (gs : list mem) :
    Forall2 (fun p g => row_own cf p.1 p.2 g) ps gs -> apart gs -> fown cf (zip (concat ps.*1) (concat ps.*2)) (gunion gs).
  Proof.
    induction 1 as [|[vs ls] g ps gs Hr Hrest IH]; intros Ha; simpl; [done|]. simpl in Hr. apply apart_cons in Ha as [Ha Hd].
    pose proof (row_length cf _ _ _ Hr) as Hl. rewrite zip_app by done. apply fown_app. exists g, (gunion gs). split_and!; [|by apply IH|done..].
    unfold fown. rewrite fst_zip, snd_zip by lia. done.
  Qed.
  Lemma rows_split (ps : list (list vec_obj * list (list V))) (h : mem) :
    Forall (fun p => length p.1 = length p.2) ps -> fown cf (zip (concat ps.*1) (concat ps.*2)) h ->
    exists gs, Forall2 (fun p g => row_own cf p.1 p.2 g) ps gs /\ apart gs /\ gunion gs = h.
  Proof.
    intros Hl. revert h. induction Hl as [|[vs ls] ps Hl Hrest IH]; intros h; simpl in *.
    - unfold fown. simpl. intros ->. exists []. split; [apply Forall2_nil_2|]. split; [|done]. intros i k g g' _ Hi. by rewrite lookup_nil in Hi.
    - rewrite zip_app by done. intros (h1 & h2 & H1 & H2 & Hd & ->)%fown_app. destruct (IH h2 H2) as (gs & Hf & Ha & <-).
      exists (h1 :: gs). split_and!; [|by apply apart_cons|done]. constructor; [|done]. simpl. unfold fown in H1. by rewrite fst_zip, snd_zip in H1 by lia.
  Qed.
  Lemma vec_deal_ok H f ms xs ms' : held (row_own cf) H f ms xs -> vec_deal H ms ms' ->
    exists ys, held (row_own cf) H f ms' ys /\ vec_deal_spec ms.*1 xs ms'.*1 ys.
  Proof.
    intros (gs & Hc & Hlg & Hlx & Ha & Hinv) [Hp Hown].
    assert (Forall2 (fun p g => row_own cf p.1 p.2 g) (zip ms.*1 xs) gs) as Hf2.
    { apply Forall2_same_length_lookup_2; [rewrite zip_with_length, fmap_length; lia|]. intros i [vs ls] g Hi Hg.
      apply lookup_zip_with_Some in Hi as (? & ? & [= <- <-] & Hv & Hx). rewrite list_lookup_fmap in Hv. destruct (ms !! i) as [m|] eqn:Em; [|done].
      simplify_eq/=. by eapply Hinv. }
    pose proof (rows_merge _ _ Hf2 Ha) as Hm. rewrite fst_zip, snd_zip in Hm by (rewrite fmap_length; lia).
    assert (length (concat ms.*1) = length (concat xs)) as Hlc.
    { clear -Hf2 Hlx. assert (length ms.*1 = length xs) as Hl by (rewrite fmap_length; lia). revert gs Hf2 Hl. generalize (ms.*1). intros ss. clear.
      revert xs. induction ss as [|s ss IH]; intros [|x xs] gs Hf Hl; simpl in *; try done. inversion Hf as [|? g ? gs' Hr Hrest]; subst. simpl in Hr.
      rewrite !app_length, (row_length cf _ _ _ Hr). f_equal. eapply IH; [done|lia]. }
    destruct (perm_keys (zip (concat ms.*1) (concat xs)) (concat ms'.*1)) as (l' & Hpl & Hl'); [by rewrite fst_zip by lia|].
    destruct (unconcat (ms'.*1) l'.*2) as (ys & Hys & Hcy); [by rewrite fmap_length, <-Hl', fmap_length|].
    assert (l' = zip (concat ms'.*1) (concat ys)) as -> by (rewrite Hcy, <-Hl'; symmetry; apply zip_fst_snd).
    exists ys. split; [|by split].
    destruct (rows_split (zip ms'.*1 ys) (gunion gs)) as (hs & Hf3 & Ha3 & Hu3).
    { apply Forall_lookup. intros i [vs ls] Hi. apply lookup_zip_with_Some in Hi as (? & ? & [= <- <-] & Hv & Hx). simpl. exact (Forall2_lookup_lr _ _ _ _ _ _ Hys Hv Hx). }
    { pose proof (Forall2_length _ _ _ Hys). rewrite fst_zip, snd_zip by lia. by eapply fown_perm. }
    pose proof (Forall2_length _ _ _ Hys) as Hly. pose proof (Forall2_length _ _ _ Hf3) as Hlh. rewrite zip_with_length in Hlh. rewrite fmap_length in Hly, Hlh.
    exists hs. split; [exact (consists_regroup H f gs hs Ha Ha3 (eq_sym Hu3) Hc)|]. split; [lia|]. split; [lia|]. split; [done|]. intros i m x g Hmi Hx Hg.
    assert (row_own cf m.1 x g) as Hr.
    { apply (Forall2_lookup_lr _ _ _ i (m.1, x) g Hf3); [|done]. apply lookup_zip_with_Some. exists m.1, x. by rewrite list_lookup_fmap, Hmi. }
    split; [|done]. rewrite (row_blocks cf _ _ _ Hr). rewrite Forall_lookup in Hown. eauto.
  Qed.
  Lemma vec_call_ok ops vs ls g o : cfg_ok cf -> growth_ok cf -> Forall (rop_legal cf) ops -> row_own cf vs ls g ->
    runs (exec_rops cf ops vs) (World g o None 0 0) (fun r w' => exists ls', rops_spec ops ls r.2 ls' /\ row_own cf r.1 ls' (w_heap w')).
  Proof.
    intros Hcf Hg Hl Hr. eapply (runs_exec_rops cf ops vs ls g ∅); [done..| |].
    { split; [simpl; by rewrite (right_id_L ∅ (∪))|apply map_disjoint_empty_r]. }
    intros vs' es ls' hv' w' Hr' Hh Hs _.
    exists ls'. split; [done|]. simpl. destruct Hh as [-> _]. by rewrite (right_id_L ∅ (∪)).
  Qed.
End vectors2.

(** ** The theorems for vectors *)

(** The threads have vectors and make calls on them. *)
Definition vec_held {V} (cf : cfg V) := held (row_own cf).
Definition vec_task_ok {V} (cf : cfg V) := task_ok (Forall (rop_legal cf)) (exec_rops cf).
Definition vec_rounds {V} (cf : cfg V) := rounds (Forall (rop_legal cf)) (exec_rops cf) vec_deal.
Definition vec_rounds_spec {V} := rounds_spec (@rops_spec V) (@vec_deal_spec V).

(** One round: no undefined behaviour under any schedule; when the round has
    ended every thread has got what the specification of its calls gives, and
    the vectors are as required for the next round. *)
Theorem C82_vec_round V (cf : cfg V) H f ks xs sched :
  cfg_ok cf -> growth_ok cf -> Forall (vec_task_ok cf) ks -> vec_held cf H f ((fun k => (k_st k, k_own k)) <$> ks) xs ->
  exists s', crun sched (begin H ks) = inl s' /\
    forall ls, ended s' ls -> exists ys, vec_held cf (cs_mem s') f ((fun l => (l_st l, l_own l)) <$> ls) ys /\
      round_spec rops_spec (zip (k_call <$> ks) (l_ans <$> ls)) xs ys.
Proof. intros Hcf Hg. apply round_runs. intros. by apply vec_call_ok. Qed.
Print Assumptions C82_vec_round.

(** If every thread keeps getting turns, all of them finish. *)
Theorem C82_vec_ends V (cf : cfg V) H f ks xs sched :
  cfg_ok cf -> growth_ok cf -> Forall (vec_task_ok cf) ks -> vec_held cf H f ((fun k => (k_st k, k_own k)) <$> ks) xs ->
  fair (length ks) sched ->
  exists n s', crun (sched <$> seq 0 n) (begin H ks) = inl s' /\ forall t, t ∈ cs_thr s' -> exists a, finished t a.
Proof.
  intros Hcf Hg. apply (round_ends (row_own cf) (Forall (rop_legal cf)) (exec_rops cf) rops_spec).
  intros. by apply vec_call_ok.
Qed.
Print Assumptions C82_vec_ends.

(** Any number of rounds, in between which the vectors are dealt out anew,
    starting with [ns !! i] empty vectors in the hands of thread number [i]:
    the answers and the contents are those of the specification, every vector
    shows its contents, and destroying all vectors gives back all memory. *)
Theorem C82_vec_rounds V (cf : cfg V) H (ns : list nat) tr H2 ms2 :
  cfg_ok cf -> growth_ok cf ->
  vec_rounds cf H ((fun n => (replicate n (vec_new (c_dflt cf)), ∅)) <$> ns) tr H2 ms2 ->
  exists xs, vec_rounds_spec tr ((fun n => replicate n []) <$> ns) xs /\
    Forall2 (fun m x => length m.1 = length x) ms2 xs /\
    (forall v l, (v, l) ∈ zip (concat ms2.*1) (concat xs) -> vec_shows cf (World H2 [] None 0 0) v l) /\
    runs (destroy_row (concat ms2.*1)) (World H2 [] None 0 0) (fun _ w' => w_heap w' = H).
Proof.
  intros Hcf Hg Hr. eapply (rounds_ok (row_own cf) _ _ rops_spec _ vec_deal_spec) with (f := H) in Hr as (xs & Hh & Hs).
  - exists xs. split; [exact Hs|]. destruct Hh as (gs & Hc & Hlg & Hlx & Ha & Hinv).
    assert (Forall2 (fun p g => row_own cf p.1 p.2 g) (zip ms2.*1 xs) gs) as Hf2.
    { apply Forall2_same_length_lookup_2; [rewrite zip_with_length, fmap_length; lia|]. intros i [vs ls] g Hi Hgi.
      apply lookup_zip_with_Some in Hi as (? & ? & [= <- <-] & Hv & Hx). rewrite list_lookup_fmap in Hv. destruct (ms2 !! i) as [m|] eqn:Em; [|done].
      simplify_eq/=. by eapply Hinv. }
    pose proof (rows_merge cf _ _ Hf2 Ha) as Hm. rewrite fst_zip, snd_zip in Hm by (rewrite fmap_length; lia).
    assert (Forall2 (fun m x => length m.1 = length x) ms2 xs) as Hlen.
    { apply Forall2_same_length_lookup_2; [done|]. intros i m x Hmi Hx. destruct (lookup_lt_is_Some_2 gs i) as [g Hgi]; [rewrite Hlg; by eapply lookup_lt_Some|].
      eapply row_length, (Hinv i m x g); done. }
    assert (length (concat ms2.*1) = length (concat xs)) as Hlc.
    { clear -Hlen. induction Hlen as [|m x ms xs Hl _ IH]; [done|]. rewrite !fmap_cons. cbn [concat]. rewrite !app_length, Hl. by f_equal. }
    assert (heap_is (World H2 [] None 0 0) (gunion gs) H) as Hheap.
    { destruct Hc as (Hf & Hin & Hcov). assert (gunion gs ##ₘ H) as Hd.
      { apply map_disjoint_spec. intros a c1 c2 H1 Hc2. apply gunion_lookup in H1 as (g & Hgs & H1); [|done]. destruct (Hin g Hgs) as [_ Hd].
        rewrite map_disjoint_spec in Hd. eauto. }
      split; [|done]. simpl. apply map_eq. intros a. destruct ((gunion gs ∪ H) !! a) as [c|] eqn:E.
      - apply lookup_union_Some in E as [E|E]; [|by eapply lookup_weaken|done]. apply gunion_lookup in E as (g & Hgs & E); [|done].
        destruct (Hin g Hgs). by eapply lookup_weaken.
      - destruct (H2 !! a) as [c|] eqn:E2; [|done]. apply lookup_union_None in E as [E1 E3].
        destruct (Hcov a) as [[? ?]|(g & Hgs & [c' Hc'])]; [by rewrite E2|congruence|].
        assert (gunion gs !! a = Some c') by (apply gunion_lookup; eauto). congruence. }
    split; [done|]. split.
    + intros v l [i Hi]%elem_of_list_lookup. apply lookup_zip_with_Some in Hi as (? & ? & [= <- <-] & Hv & Hl).
      unfold fown in Hm. rewrite fst_zip, snd_zip in Hm by lia.
      destruct (row_get_at _ _ _ _ _ _ _ _ Hm Hheap Hv) as (l0 & cap & h1 & h2 & Hl0 & _ & Ho & Hh1 & _). simplify_eq. by eapply owns_shows.
    + unfold fown in Hm. rewrite fst_zip, snd_zip in Hm by lia. eapply runs_destroy_row; [done..|]. done.
  - intros. by apply vec_call_ok.
  - intros. by apply vec_deal_ok.
  - exists ((fun _ => ∅) <$> ns). split; [split; [done|split]|split_and!].
    + intros g (n & -> & _)%elem_of_list_fmap. split; [apply map_empty_subseteq|apply map_disjoint_empty_r].
    + intros a Ha. by left.
    + by rewrite !fmap_length.
    + by rewrite !fmap_length.
    + intros i k g g' _ Hi _. rewrite list_lookup_fmap in Hi. destruct (ns !! i); [|done]. simplify_eq/=. apply map_disjoint_empty_l.
    + intros i m x g Hm Hx Hgi. rewrite list_lookup_fmap in Hm. rewrite list_lookup_fmap in Hx. rewrite list_lookup_fmap in Hgi. destruct (ns !! i); [|done]. simplify_eq/=.
      split; [by rewrite dom_empty_L|by apply row_new].
Qed.
Print Assumptions C82_vec_rounds.

(** ** Example

    Two threads fill a vector each, the second one with a failed allocation;
    then one thread gets both vectors and swaps and copies. *)
Definition ho_task (st : list vec_obj) (own : gset addr) (ops : list (rop nat)) (orc : list event) : task :=
  Task st own ops orc (proj1_sig (st_exec_rops nat cfD ops st)).
Lemma ho_task_ok st own ops orc : Forall (rop_legal cfD) ops -> vec_task_ok cfD (ho_task st own ops orc).
Proof. intros Hl. split; [exact Hl|]. exact (proj1 (proj2_sig (st_exec_rops nat cfD ops st))). Qed.
Definition ho_ops1 : list (rop nat) := [RoOne 0 (OpAssignRange [1; 2; 3])].
Definition ho_ops2 : list (rop nat) := [RoOne 0 (OpPush 7); RoOne 0 (OpPush 8)].
Definition ho_ops3 : list (rop nat) := [RoSwap 0 1; RoCopy 1 0; RoPushElem 1 0 0].
Definition ho_round1 : list task := [ho_task [vec_new 0] ∅ ho_ops1 []; ho_task [vec_new 0] ∅ ho_ops2 [EvOk 1; EvOk 1; EvFail 0]].
Lemma deal_to_one (H : gmap addr (vblock nat)) (ms : list (list vec_obj * gset addr)) : vec_deal H ms [(concat ms.*1, storages (concat ms.*1))].
Proof. split; [by rewrite fmap_cons; cbn [concat]; rewrite app_nil_r|]. apply List.Forall_cons; [done|apply List.Forall_nil]. Qed.
Definition members_of {C} (s : csys C (list vec_obj * list (option error))) : list (list vec_obj * gset addr) :=
  (fun l : rest => (l_st l, l_own l)) <$> (rest_of <$> cs_thr s).
Lemma two_rounds (H : gmap addr (vblock nat)) ks1 ks2 sched1 sched2 s1 s2 :
  Forall (vec_task_ok cfD) ks1 -> crun sched1 (begin H ks1) = inl s1 -> forallb at_end (cs_thr s1) = true ->
  Forall (vec_task_ok cfD) ks2 -> crun sched2 (begin (cs_mem s1) ks2) = inl s2 -> forallb at_end (cs_thr s2) = true ->
  (fun k => (k_st k, k_own k)) <$> ks2 = [(concat (members_of s1).*1, storages (concat (members_of s1).*1))] ->
  exists ms2 tr, vec_rounds cfD H ((fun k => (k_st k, k_own k)) <$> ks1) tr (cs_mem s2) ms2 /\
    omap (fun e => match e with Round rd => Some rd | Deal _ _ => None end) tr =
      [zip (k_call <$> ks1) (l_ans <$> (rest_of <$> cs_thr s1)); zip (k_call <$> ks2) (l_ans <$> (rest_of <$> cs_thr s2))].
Proof.
  intros Hk1 Hr1 He1 Hk2 Hr2 He2 Hms. eexists _, _. split.
  - eapply rounds_round; [exact Hk1|exact Hr1|apply ended_by; exact He1|].
    eapply rounds_deal; [apply deal_to_one|]. fold (members_of s1). rewrite <-Hms.
    eapply rounds_round; [exact Hk2|exact Hr2|apply ended_by; exact He2|apply rounds_nil].
  - reflexivity.
Qed.
Definition ho_s1 := sys_of (crun (round_robin 200) (begin ∅ ho_round1)).
Definition ho_both : list vec_obj := concat (members_of ho_s1).*1.
Definition ho_round2 : list task := [ho_task ho_both (storages ho_both) ho_ops3 []].
Definition ho_s2 := sys_of (crun (replicate 200 0) (begin (cs_mem ho_s1) ho_round2)).

Example C82_vec_rounds_example :
  cfg_ok cfD /\ growth_ok cfD /\
  (exists ms2 tr, vec_rounds cfD ∅ ((fun n => (replicate n (vec_new (c_dflt cfD)), ∅)) <$> [1; 1]) tr (cs_mem ho_s2) ms2 /\
     omap (fun e => match e with Round rd => Some rd | Deal _ _ => None end) tr =
       [[(ho_ops1, [None]); (ho_ops2, [None; Some EBadAlloc])]; [(ho_ops3, [None; None; None])]]) /\
  (fun x => map_to_list (b_live x.2)) <$> map_to_list (cs_mem ho_s2) = [[(0, 7)]; [(0, 7); (1, 7)]].
Proof.
  split; [apply cfD_ok|]. split; [apply cfD_ok|]. split; [|vm_compute; reflexivity].
  destruct (two_rounds ∅ ho_round1 ho_round2 (round_robin 200) (replicate 200 0) ho_s1 ho_s2) as (ms2 & tr & Hr & Htr).
  - repeat (apply List.Forall_cons || apply List.Forall_nil); apply ho_task_ok; repeat constructor; vm_compute; congruence.
  - apply sys_of_run. vm_compute. reflexivity.
  - vm_compute. reflexivity.
  - repeat (apply List.Forall_cons || apply List.Forall_nil); apply ho_task_ok; repeat constructor; vm_compute; congruence.
  - apply sys_of_run. vm_compute. reflexivity.
  - vm_compute. reflexivity.
  - reflexivity.
  - exists ms2, tr. split; [exact Hr|]. rewrite Htr. vm_compute. reflexivity.
Qed.
