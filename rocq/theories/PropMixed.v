(** * Property C81: vectors, lists, sets and shared_ptrs side by side

    Activities of all kinds in one memory.  An activity creates some vectors,
    lists, sets, trees with equal values, or shared_ptrs, makes any calls on
    them, looks at them and destroys them.  The activities take turns between
    any two accesses to memory: threads, or parts of one thread that are
    executed alternately.  Vocabulary: ConcSpec.v. *)
From Verif Require Import PropVector PropList PropMulti PropSp RoundsSpec RbMultiHist PropRounds PropSet SpHist ConcMix ConcSp ConcMulti VecExtra VecRow PropConc PropConcVec PropConcList PropConcSet PropConcSp.

Section mixed.
  (** The element types of the vectors, lists, sets and trees, and objects. *)
  Context {Vv Vl Vs Vm Vp : Type}.

  (** One memory for all. *)
  Inductive ucell := UVec (c : vblock Vv) | UList (c : lcell Vl) | USet (c : tcell Vs) | UMulti (c : tcell Vm) | UPtr (c : scell Vp).
  Definition un_vec u := match u with UVec c => Some c | _ => None end.
  Definition un_list u := match u with UList c => Some c | _ => None end.
  Definition un_set u := match u with USet c => Some c | _ => None end.
  Definition un_multi u := match u with UMulti c => Some c | _ => None end.
  Definition un_ptr u := match u with UPtr c => Some c | _ => None end.

  (** An activity; each has its own configuration (allocator, kind of
      construction, size of the elements). *)
  Inductive task :=
  | TkVec (cf : cfg Vv) (k : nat) (ops : list (rop Vv))
  | TkList (cf : cfg Vl) (comp : Vl -> Vl -> bool) (k : nat) (ops : list (lop Vl))
  | TkSet (cf : cfg Vs) (comp : Vs -> Vs -> bool) (k : nat) (ops : list (sop Vs))
  | TkMulti (cf : cfg Vm) (comp : Vm -> Vm -> bool) (k : nat) (ops : list (mop Vm))
  | TkPtr (cf : cfg Vp) (ops : list (spop Vp)).
  (** What it reports: the answers of the calls, and what it saw at the end. *)
  Inductive report :=
  | RpVec (es : list (option error)) (ls : list (list Vv))
  | RpList (es : list (option error)) (ls : list (list Vl))
  | RpSet (rs : list (option error * RbHistSpec.sans Vs)) (ls : list (list Vs * list Vs))
  | RpMulti (rs : list (option error * mans Vm)) (ls : list (list Vm * list Vm))
  | RpPtr (counts : list Z).

  (** [p] is the activity [t] in single steps. *)
  Definition does (p : prog ucell report) (t : task) : Prop :=
    match t with
    | TkVec cf k ops => exists q, presents q (vec_thread cf k ops) /\ p = lift UVec un_vec (fun r => RpVec r.1 r.2) q
    | TkList cf comp k ops => exists q, presents q (list_thread cf comp k ops) /\ p = lift UList un_list (fun r => RpList r.1 r.2) q
    | TkSet cf comp k ops => exists q, presents q (set_life cf comp k ops) /\ p = lift USet un_set (fun r => RpSet r.1 r.2) q
    | TkMulti cf comp k ops => exists q, presents q (multi_life cf comp k ops) /\ p = lift UMulti un_multi (fun r => RpMulti r.1 r.2) q
    | TkPtr cf ops => exists q, presents q (sp_thread cf ops) /\ p = lift UPtr un_ptr RpPtr q
    end.

  (** What the kinds of activities require: calls of vectors within the limits
      of std::vector; comparison functions of sets that are strict weak
      orderings; objects of shared_ptrs whose members are shared_ptrs and do
      not own each other in a cycle. *)
  Definition task_ok (t : task) : Prop :=
    match t with
    | TkVec cf k ops => cfg_ok cf /\ growth_ok cf /\ Forall (rop_legal cf) ops
    | TkList _ _ _ _ => True
    | TkSet _ comp _ _ => swo comp
    | TkMulti _ comp _ _ => swo comp
    | TkPtr cf ops => Forall shared_members ops /\
        forall o vars w, exec_spops cf ops [] (World ∅ o None 0 0) = Done vars w -> no_owner_cycle (w_heap w)
    end.
  (** What it reports, by the specifications of histories ([rops_spec] and so
      on); shared_ptrs: what it reports alone, with the same failures. *)
  Definition task_spec (t : task) (orc : list event) (r : report) : Prop :=
    match t, r with
    | TkVec cf k ops, RpVec es ls => rops_spec ops (replicate k []) es ls
    | TkList cf comp k ops, RpList es ls => lops_spec comp ops (replicate k []) es ls
    | TkSet cf comp k ops, RpSet rs ws => exists ls, sops_spec comp ops (replicate k []) rs ls /\ ws = (fun l => (l, reverse l)) <$> ls
    | TkMulti cf comp k ops, RpMulti rs ws => exists ls, mops_spec comp ops (replicate k []) rs ls /\ ws = (fun l => (l, reverse l)) <$> ls
    | TkPtr cf ops, RpPtr ns => exists o w, same_failures o orc /\ sp_thread cf ops (World ∅ o None 0 0) = Done ns w
    | _, _ => False
    end.

  Lemma runs_task p t orc o : does p t -> task_ok t -> same_failures o orc ->
    runs (exec p) (World ∅ o None 0 0) (fun r w => task_spec t orc r /\ w_heap w = ∅).
  Proof.
    intros Hd Hok Ho. destruct t as [cf k ops|cf comp k ops|cf comp k ops|cf comp k ops|cf ops]; destruct Hd as (q & Hq & ->); simpl in Hok.
    - destruct Hok as (H1 & H2 & H3). eapply runs_mono; [apply runs_lift; [done|]|].
      + unfold runs. rewrite Hq. apply (runs_vec_thread _ cf k ops (World ∅ o None 0 0) H1 H2 H3).
      + intros b w [(r & -> & Hr) Hh]. by split.
    - eapply runs_mono; [apply runs_lift; [done|]|].
      + unfold runs. rewrite Hq. apply (runs_list_thread _ cf comp k ops (World ∅ o None 0 0)).
      + intros b w [(r & -> & Hr) Hh]. by split.
    - eapply runs_mono; [apply runs_lift; [done|]|].
      + unfold runs. rewrite Hq. destruct (set_life_spec cf comp k ops (World ∅ o None 0 0) Hok) as (r & w & Hr & Hh & Hs). exists r, w.
        split; [done|]. split; [exact Hs|exact Hh].
      + intros b w [(r & -> & Hr) Hh]. by split.
    - eapply runs_mono; [apply runs_lift; [done|]|].
      + unfold runs. rewrite Hq. destruct (multi_life_spec cf comp k ops (World ∅ o None 0 0) Hok) as (r & w & Hr & Hh & Hs). exists r, w.
        split; [done|]. split; [exact Hs|exact Hh].
      + intros b w [(r & -> & Hr) Hh]. by split.
    - destruct Hok as [H1 H2].
      destruct (runs_sp_thread _ cf ops o H1) as (r & w & Hr & Hh).
      eapply runs_mono; [apply (runs_lift _ _ _) with (Q := fun a => a = r); [done|]|].
      + exists r, w. rewrite Hq. split; [done|]. split; [done|]. apply Hh. intros vars w0. apply H2.
      + intros b w' [(r' & -> & ->) Hh']. split; [|done]. simpl. by exists o, w.
  Qed.

  (** Any number of activities of any kinds, with any calls, any failures, in
      any order: no undefined behaviour; whoever has finished reports what the
      specification of its own calls says, as if it were alone; when all have
      finished, the memory is as before. *)
  Theorem C81_mixed H (ts : list (task * list event)) ps sched :
    Forall2 (fun p t => does p t.1) ps ts -> Forall (fun t => task_ok t.1) ts ->
    exists s', crun sched (start H (zip_with (fun p t => Job p ∅ t.2) ps ts)) = inl s' /\ H ⊆ cs_mem s' /\
      (forall i t th r, ts !! i = Some t -> cs_thr s' !! i = Some th -> finished th r -> task_spec t.1 t.2 r) /\
      ((forall th, th ∈ cs_thr s' -> exists r, finished th r) -> cs_mem s' = H).
  Proof.
    intros Hps Hok.
    destruct (C80_programs _ _ H ps ts.*2 (fun i r => forall t, ts !! i = Some t -> task_spec t.1 t.2 r) sched) as (s' & Hr & Hsub & Hfin & Hall).
    - rewrite fmap_length. symmetry. by eapply Forall2_length.
    - intros i p o o' Hp Ho Hsf. destruct (Forall2_lookup_l _ _ _ _ _ Hps Hp) as (t & Ht & Hd).
      rewrite list_lookup_fmap, Ht in Ho. simplify_eq/=.
      eapply runs_mono; [eapply runs_task; [exact Hd| |exact Hsf]|].
      + rewrite Forall_forall in Hok. by eapply Hok, elem_of_list_lookup_2.
      + intros r w [Hs Hh]. split; [|done]. intros t' Ht'. by simplify_eq.
    - exists s'. rewrite zip_with_fmap_r in Hr. split; [done|]. split; [done|]. split; [|done]. intros i t th r Ht Hth Hf. by eapply Hfin.
  Qed.

  (** Every activity can be cut into single steps, and if all of them keep
      getting turns, all of them finish. *)
  Theorem C81_steps t : exists p, does p t.
  Proof.
    destruct t as [cf k ops|cf comp k ops|cf comp k ops|cf comp k ops|cf ops]; simpl.
    - destruct (C80_vec_steps _ cf k ops) as [q Hq]. eauto.
    - destruct (C80_list_steps _ cf comp k ops) as [q Hq]. eauto.
    - destruct (C80_set_steps _ cf comp k ops) as [q Hq]. eauto.
    - destruct (C80_multi_steps _ cf comp k ops) as [q Hq]. eauto.
    - destruct (C80_sp_steps _ cf ops) as [q Hq]. eauto.
  Qed.
  Theorem C81_ends H (ts : list (task * list event)) ps sched :
    Forall2 (fun p t => does p t.1) ps ts -> Forall (fun t => task_ok t.1) ts -> fair (length ts) sched ->
    exists n s', crun (sched <$> seq 0 n) (start H (zip_with (fun p t => Job p ∅ t.2) ps ts)) = inl s' /\
      (forall th, th ∈ cs_thr s' -> exists r, finished th r) /\ cs_mem s' = H.
  Proof.
    intros Hps Hok Hfair. set (js := zip_with _ ps ts).
    pose proof (Forall2_length _ _ _ Hps) as Hlen.
    assert (Hjl : length js = length ts) by (unfold js; rewrite zip_with_length; lia).
    assert (forall i j, js !! i = Some j -> exists p t, ps !! i = Some p /\ ts !! i = Some t /\ does p t.1 /\ task_ok t.1 /\ j = Job p ∅ t.2) as Hj.
    { intros i j Hi. apply lookup_zip_with_Some in Hi as (p & t & -> & Hp & Ht). exists p, t. split_and!; try done.
      - exact (Forall2_lookup_lr _ _ _ _ _ _ Hps Hp Ht).
      - rewrite Forall_forall in Hok. by eapply Hok, elem_of_list_lookup_2. }
    assert (j_mem <$> js = replicate (length js) ∅) as Hmem.
    { apply list_eq. intros i. rewrite list_lookup_fmap. destruct (js !! i) as [j|] eqn:E.
      - destruct (Hj i j E) as (p & t & _ & _ & _ & _ & ->). symmetry. simpl. apply lookup_replicate. split; [done|by eapply lookup_lt_Some].
      - simpl. symmetry. apply lookup_replicate_None. by apply lookup_ge_None. }
    destruct (C80_ends _ _ H H js sched) as (n & s' & Hr & Hfin).
    - rewrite Hmem. apply seen_nothing.
    - intros i k j j' _ Hi Hk. left. destruct (Hj i j Hi) as (p & t & _ & _ & _ & _ & ->). apply map_disjoint_empty_l.
    - apply Forall_lookup. intros i j Hi o Ho. destruct (Hj i j Hi) as (p & t & _ & _ & Hd & Ht & ->).
      destruct (runs_task p t.1 t.2 o Hd Ht Ho) as (a & w & Hrun & _). by exists a, w.
    - by rewrite Hjl.
    - exists n, s'. split; [done|]. split; [done|].
      destruct (C81_mixed H ts ps (sched <$> seq 0 n) Hps Hok) as (s2 & Hr2 & _ & _ & Hend). unfold js in Hr.
      assert (s2 = s') as -> by congruence. by apply Hend.
  Qed.
End mixed.
Arguments ucell : clear implicits.
Arguments task : clear implicits.
Arguments report : clear implicits.
Print Assumptions C81_mixed.
Print Assumptions C81_steps.
Print Assumptions C81_ends.

(** Five activities, one step each in turn; the second element of the list is
    not inserted, for want of memory.  The hypotheses hold, and this is
    reported. *)
Definition mix_tasks : list (task nat nat nat nat nat * list event) :=
  [(TkVec cfD 2 ops1, []); (TkList lcD Nat.ltb 1 lops2, [EvOk 1; EvOk 1; EvFail 0]); (TkSet tcD nat_lt 1 sops1, []);
   (TkMulti tcD nat_lt 1 mops2, []); (TkPtr scD spt2, [])].
Definition mix_progs : list (prog (ucell nat nat nat nat nat) (report nat nat nat nat)) :=
  [lift UVec un_vec (fun r => RpVec r.1 r.2) (proj1_sig (st_vec_thread nat cfD 2 ops1));
   lift UList un_list (fun r => RpList r.1 r.2) (proj1_sig (st_list_thread nat lcD Nat.ltb 1 lops2));
   lift USet un_set (fun r => RpSet r.1 r.2) (proj1_sig (st_set_life nat _ tcD nat_lt 1 sops1));
   lift UMulti un_multi (fun r => RpMulti r.1 r.2) (proj1_sig (st_multi_life nat _ tcD nat_lt 1 mops2));
   lift UPtr un_ptr RpPtr (proj1_sig (st_sp_thread nat scD spt2))].
(** The elements seen at the end, or the counts. *)
Definition seen (r : report nat nat nat nat) : list (list nat) * list Z :=
  match r with
  | RpVec _ ls => (ls, []) | RpList _ ls => (ls, []) | RpSet _ ls => (fst <$> ls, []) | RpMulti _ ls => (fst <$> ls, []) | RpPtr ns => ([], ns)
  end.
Example C81_example :
  Forall2 (fun p t => does p t.1) mix_progs mix_tasks /\ Forall (fun t => task_ok t.1) mix_tasks /\
  option_map (fun r => (fmap (M := option) seen <$> r.1, r.2))
    (results (crun (concat (replicate 2000 [0; 1; 2; 3; 4])) (start ∅ (zip_with (fun p t => Job p ∅ t.2) mix_progs mix_tasks)))) =
    Some ([Some ([[1; 2; 3]; [1; 2; 3; 3]], []); Some ([[7; 9]], []); Some ([[1; 2]], []); Some ([[]], []); Some ([], [0; 2; 2; 2]%Z)], []).
Proof.
  split.
  { constructor; [exists (proj1_sig (st_vec_thread nat cfD 2 ops1)); split; [exact (proj1 (proj2_sig (st_vec_thread nat cfD 2 ops1)))|reflexivity]|].
    constructor; [exists (proj1_sig (st_list_thread nat lcD Nat.ltb 1 lops2)); split; [exact (proj1 (proj2_sig (st_list_thread nat lcD Nat.ltb 1 lops2)))|reflexivity]|].
    constructor; [exists (proj1_sig (st_set_life nat _ tcD nat_lt 1 sops1)); split; [exact (proj1 (proj2_sig (st_set_life nat _ tcD nat_lt 1 sops1)))|reflexivity]|].
    constructor; [exists (proj1_sig (st_multi_life nat _ tcD nat_lt 1 mops2)); split; [exact (proj1 (proj2_sig (st_multi_life nat _ tcD nat_lt 1 mops2)))|reflexivity]|].
    constructor; [exists (proj1_sig (st_sp_thread nat scD spt2)); split; [exact (proj1 (proj2_sig (st_sp_thread nat scD spt2)))|reflexivity]|constructor]. }
  split.
  { constructor; [split; [apply cfD_ok|]; split; [apply cfD_ok|]; repeat constructor; vm_compute; congruence|].
    constructor; [done|]. constructor; [apply nat_lt_swo|]. constructor; [apply nat_lt_swo|].
    constructor; [|constructor]. split; [repeat constructor|]. intros o vars w. apply C80_sp_plain. repeat constructor. }
  vm_compute. reflexivity.
Qed.
