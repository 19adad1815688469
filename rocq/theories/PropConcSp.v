(** * Property C80 for shared_ptr and weak_ptr *)
From Verif Require Import SpHist PropSp ConcSp PropConc.

(** ** The program of a thread *)

(** use_count() of the variables. *)
Fixpoint counts {V} (cf : cfg V) (vars : list addr) : M (scell V) (list Z) :=
  match vars with
  | [] => ret []
  | a :: vars => let! n := sp_use_count cf (a, 0) in let! ns := counts cf vars in ret (n :: ns)
  end.
(** A thread that executes the statements [ops] on variables of its own, asks
    all of them for use_count(), and leaves their scope. *)
Definition sp_thread {V} (cf : cfg V) (ops : list (spop V)) : M (scell V) (list Z) :=
  let! vars := exec_spops cf ops [] in
  let! ns := counts cf vars in
  do! drop_all cf vars in
  ret ns.

Lemma st_with_loc b V cf A vars e d f : (forall l k, steps b (f l k)) -> steps b (@with_loc V cf A vars e d f).
Proof. intros Hf. unfold with_loc. stp; apply Hf. Defined.
Lemma st_declare V vars m : steps false m -> steps false (@declare V vars m).
Proof. intros Hm. unfold declare. apply steps_bind; [exact Hm|]. intros. stp. Defined.
Lemma st_exec_spop V cf op vars : steps false (@exec_spop V cf op vars).
Proof.
  destruct op; cbn [exec_spop];
    repeat match goal with
    | |- steps _ (with_loc _ _ _ _ _) => apply st_with_loc; intros
    | |- steps _ (declare _ _) => apply st_declare
    | |- steps _ (match ?x with _ => _ end) => destruct x
    | |- steps _ (bind _ _) => apply steps_bind; [solve [stp]|intros]
    | |- _ => solve [stp]
    end.
Defined.
Lemma st_exec_spops V cf ops : forall vars, steps false (@exec_spops V cf ops vars).
Proof. induction ops as [|op ops IH]; intros; cbn [exec_spops]; [stp|]. apply steps_bind; [apply st_exec_spop|]. intros. apply IH. Defined.
Lemma st_drop_all V cf vars : steps false (@drop_all V cf vars).
Proof. induction vars as [|a vars IH]; intros; cbn [drop_all]; stpr IH. Defined.
Lemma st_counts b V cf vars : steps b (@counts V cf vars).
Proof. induction vars as [|a vars IH]; intros; cbn [counts]; stpr IH. Defined.
#[local] Hint Resolve st_exec_spops st_drop_all st_counts : stdb.
Lemma st_sp_thread V cf ops : steps false (@sp_thread V cf ops).
Proof. unfold sp_thread. stp. Defined.

Theorem C80_sp_steps V (cf : cfg V) ops : can_step (sp_thread cf ops).
Proof. destruct (st_sp_thread V cf ops) as [p [Hp _]]. by exists p. Qed.
Print Assumptions C80_sp_steps.

Lemma runs_counts V (cf : cfg V) vars (w : world (scell V)) : inv (w_heap w) [] [] -> (forall a, a ∈ vars -> is_var (w_heap w) a) ->
  exists ns, counts cf vars w = Done ns w.
Proof.
  intros Hi. induction vars as [|a vars IH]; intros Hv; simpl; [by exists []|].
  destruct (Hv a) as [x Hx]; [left|]. assert (Hh : holds (w_heap w) (a, 0) x) by (unfold holds; simpl; by rewrite Hx).
  destruct (shows cf w (a, 0) x Hi Hh) as (_ & Hu & _). destruct IH as [ns Hns]; [intros b Hb; apply Hv; by right|].
  eexists. unfold bind. rewrite Hu, Hns. done.
Qed.
Lemma runs_sp_thread V (cf : cfg V) ops orc : Forall shared_members ops ->
  runs (sp_thread cf ops) (World ∅ orc None 0 0) (fun r w' =>
    (forall vars w, exec_spops cf ops [] (World ∅ orc None 0 0) = Done vars w -> no_owner_cycle (w_heap w)) -> w_heap w' = ∅).
Proof.
  intros Hf. unfold sp_thread.
  destruct (exec_spops_shared cf ops [] (World ∅ orc None 0 0) (good_start _ _ _ _) (members_start _ _ _ _) Hf) as (vars & w & He & Hg & Hm).
  unfold runs, bind. rewrite He. destruct (runs_counts V cf vars w) as [ns Hns]; [apply Hg|intros a Ha; by apply Hg|]. rewrite Hns.
  destruct (ends_runs (drop_all cf vars) w _ (drop_all_good cf false vars w Hg ltac:(intros _; by apply drops_safe, members_shared_safe))) as (u & w' & Hd & Hg' & Hfew & _).
  rewrite Hd. eexists _, _. split; [done|]. intros Hc. specialize (Hc vars w eq_refl). apply no_vars_empty; [done|]. by eapply fewer_owner.
Qed.

(** ** Different objects in different threads

    Any number of threads, each with shared_ptrs and weak_ptrs of its own to
    objects of its own, which may own one another; each executes any
    statements, with any failures, scheduled in any way: no undefined
    behaviour; a thread that has finished has seen the counts that it sees
    alone with the same failures.  When all have finished, and none of them
    built a cycle of owners, the memory is as before. *)
Theorem C80_shared_ptrs V (cf : cfg V) H (ts : list (list (spop V) * list event)) ps sched :
  Forall2 (fun p t => presents p (sp_thread cf t.1)) ps ts ->
  Forall (fun t => Forall shared_members t.1) ts ->
  exists s', crun sched (start H (zip_with (fun p t => Job p ∅ t.2) ps ts)) = inl s' /\ H ⊆ cs_mem s' /\
    (forall i t th r, ts !! i = Some t -> cs_thr s' !! i = Some th -> finished th r ->
       exists o w, same_failures o t.2 /\ sp_thread cf t.1 (World ∅ o None 0 0) = Done r w) /\
    ((forall th, th ∈ cs_thr s' -> exists r, finished th r) ->
     (forall t o vars w, t ∈ ts -> same_failures o t.2 -> exec_spops cf t.1 [] (World ∅ o None 0 0) = Done vars w -> no_owner_cycle (w_heap w)) ->
     cs_mem s' = H).
Proof.
  intros Hps Hsm. set (js := zip_with _ ps ts).
  pose proof (Forall2_length _ _ _ Hps) as Hlen.
  assert (Hjs : js = zip_with (fun p o => Job p ∅ o) ps ts.*2) by (by rewrite zip_with_fmap_r).
  assert (forall i j, js !! i = Some j -> exists p t, ps !! i = Some p /\ ts !! i = Some t /\ presents p (sp_thread cf t.1) /\ Forall shared_members t.1 /\ j = Job p ∅ t.2) as Hj.
  { intros i j Hi. apply lookup_zip_with_Some in Hi as (p & t & -> & Hp & Ht). exists p, t. split_and!; try done.
    - exact (Forall2_lookup_lr _ _ _ _ _ _ Hps Hp Ht).
    - rewrite Forall_forall in Hsm. by eapply Hsm, elem_of_list_lookup_2. }
  assert (j_mem <$> js = replicate (length js) ∅) as Hmem.
  { apply list_eq. intros i. rewrite list_lookup_fmap. destruct (js !! i) as [j|] eqn:E.
    - destruct (Hj i j E) as (p & t & _ & _ & _ & _ & ->). symmetry. simpl. apply lookup_replicate. split; [done|by eapply lookup_lt_Some].
    - simpl. symmetry. apply lookup_replicate_None. by apply lookup_ge_None. }
  destruct (C80_threads _ _ H H js sched) as (s' & gs & Hr & Hls & Hlg & Hc & Ht).
  - rewrite Hmem. apply seen_nothing.
  - intros i k j j' _ Hi Hk. left. destruct (Hj i j Hi) as (p & t & _ & _ & _ & _ & ->). apply map_disjoint_empty_l.
  - apply Forall_lookup. intros i j Hi o Ho. destruct (Hj i j Hi) as (p & t & _ & _ & Hpt & Hs & ->).
    destruct (runs_sp_thread V cf t.1 o Hs) as (a & w & Hrun & _). exists a, w. unfold alone. simpl. by rewrite Hpt.
  - exists s'. split; [done|]. split; [exact (proj1 Hc)|]. split.
    + intros i t th r Hti Hth Hf. assert (Hi : i < length js) by (rewrite <-Hls; by eapply lookup_lt_Some).
      destruct (lookup_lt_is_Some_2 _ _ Hi) as [j Hji]. destruct (lookup_lt_is_Some_2 gs i) as [g Hg]; [lia|].
      destruct (Ht i j th g Hji Hth Hg) as (_ & Hres). destruct (Hres r Hf) as (o & w & Ho & Ha & _).
      destruct (Hj i j Hji) as (p & t' & _ & Ht' & Hpt & _ & ->). simplify_eq. exists o, w. split; [done|].
      unfold alone in Ha. simpl in Ha. by rewrite Hpt in Ha.
    + intros Hall Hacy. destruct (C80_programs _ _ H ps ts.*2 (fun _ _ => True) sched) as (s2 & Hr2 & _ & _ & Hend).
      * by rewrite fmap_length.
      * intros i p o o' Hp Ho Hsf. destruct (Forall2_lookup_l _ _ _ _ _ Hps Hp) as (t & Hti & Hpt).
        rewrite list_lookup_fmap, Hti in Ho. simplify_eq/=. rewrite Forall_forall in Hsm.
        pose proof (elem_of_list_lookup_2 _ _ _ Hti) as Hin.
        destruct (runs_sp_thread V cf t.1 o' (Hsm t Hin)) as (a & w & Hrun & Hw). exists a, w. rewrite Hpt. split; [done|]. split; [done|].
        apply Hw. intros vars w1. by apply Hacy.
      * rewrite Hjs in Hr. assert (s2 = s') as -> by congruence. by apply Hend.
Qed.
Print Assumptions C80_shared_ptrs.

(** Objects without members own nothing: no cycles. *)
Definition plain {V} (op : spop V) : Prop := match op with SoMake _ ks => ks = [] | _ => True end.
Theorem C80_sp_plain V (cf : cfg V) ops o vars w : Forall plain ops ->
  exec_spops cf ops [] (World ∅ o None 0 0) = Done vars w -> no_owner_cycle (w_heap w).
Proof.
  intros Hp. assert (forall vars0 w0, good (w_heap w0) vars0 -> members_in (fun _ => False) (w_heap w0) ->
    runs (exec_spops cf ops vars0) w0 (fun _ w' => members_in (fun _ => False) (w_heap w'))) as Hgen.
  { induction ops as [|op ops IH]; intros vars0 w0 Hg Hm; cbn [exec_spops]; [by apply runs_ret|]. inversion Hp as [|?? Hop Hops]; subst. rbind.
    assert (Hs : no_weak_cycle (w_heap w0)).
    { intros c d (b & v & hs & x & Hb & Hv & Hx & _). pose proof (Hm c b v hs Hb Hv) as Hf. rewrite Forall_forall in Hf. by destruct (Hf x Hx). }
    eapply runs_mono; [apply ends_runs; apply (exec_spop_after cf false); [done|by intros _; apply no_weak_cycle_step]|].
    intros vars' w' (Hg' & _ & Hm'). apply IH; [done|done|]. apply Hm'; [|done]. destruct op; try done. simpl in *. by subst. }
  intros He. destruct (Hgen [] (World ∅ o None 0 0) (good_start _ _ _ _)) as (vars' & w' & He' & Hm).
  { intros c b v hs Hb. simpl in Hb. by rewrite lookup_empty in Hb. }
  rewrite He in He'. simplify_eq. intros c Hc. assert (exists d, member (w_heap w') KShared c d) as (d & b & v & hs & x & Hb & Hv & Hx & _) by (inversion Hc; eauto).
  pose proof (Hm c b v hs Hb Hv) as Hf. rewrite Forall_forall in Hf. by destruct (Hf x Hx).
Qed.
Print Assumptions C80_sp_plain.

(** ** Several threads look at the same pointers *)

Inductive sread_call := SrCount | SrUnique | SrBool | SrGet | SrDeref.
Inductive pans (V : Type) := PaNum (n : Z) | PaBool (b : bool) | PaPtr (p : option addr) | PaVal (v : V).
Arguments PaNum {V}.
Arguments PaBool {V}.
Arguments PaPtr {V}.
Arguments PaVal {V}.
(** use_count(), unique(), operator bool (weak_ptr: not expired()), get() and
    the value the pointer leads to *)
Definition exec_sread {V} (cf : cfg V) (l : loc) (c : sread_call) : M (scell V) (pans V) :=
  match c with
  | SrCount => let! n := sp_use_count cf l in ret (PaNum n)
  | SrUnique => let! b := sp_unique cf l in ret (PaBool b)
  | SrBool => let! b := sp_bool cf l in ret (PaBool b)
  | SrGet => let! p := sp_get l in ret (PaPtr p)
  | SrDeref => let! r := sp_deref cf l in ret (PaVal r.1.2)
  end.
Lemma st_exec_sread b {V} (cf : cfg V) l c : steps b (exec_sread cf l c).
Proof. unfold exec_sread. stp. Defined.
Theorem C80_sp_const V (cf : cfg V) l c : reading (exec_sread cf l c).
Proof. destruct (st_exec_sread true cf l c) as [p [Hp Hr]]. exists p. auto. Qed.
Print Assumptions C80_sp_const.
Theorem C80_wp_const V (cf : cfg V) l : reading (wp_expired cf l).
Proof. destruct (st_wp_expired true V cf l) as [p [Hp Hr]]. exists p. auto. Qed.
Print Assumptions C80_wp_const.

(** What they return for the handle [x], given the number of owners [n] of its
    object and the object's value [v]; only a shared_ptr that is not null can
    be dereferenced. *)
Definition sread_spec {V} (x : handle) (n : nat) (v : option V) (c : sread_call) : option (pans V) :=
  match c with
  | SrCount => Some (PaNum (Z.of_nat n))
  | SrUnique => Some (PaBool (bool_decide (n = 1)))
  | SrBool => Some (PaBool (bool_decide (0 < n)))
  | SrGet => Some (PaPtr (h_rc x))
  | SrDeref => match h_kind x with KShared => PaVal <$> v | KWeak => None end
  end.
(** The number of owners and the value of the object of [x]. *)
Definition owners_of {V} (H : gmap addr (scell V)) (x : handle) : nat := match h_rc x with Some c => owners H c | None => 0 end.
Definition value_of {V} (H : gmap addr (scell V)) (x : handle) : option V :=
  c ← h_rc x; match H !! c with Some (SBlock b) => fst <$> cb_val b | _ => None end.

(** Any program has run; then any number of threads, each making one of these
    calls on any handle, the same or different ones. *)
Theorem C80_sp_readers V (cf : cfg V) ops orc vars w (cs : list (loc * handle * sread_call)) (ps : list (prog (scell V) (pans V))) sched :
  exec_spops cf ops [] (World ∅ orc None 0 0) = Done vars w ->
  let H := w_heap w in
  Forall (fun c => holds H c.1.1 c.1.2 /\ is_Some (sread_spec c.1.2 (owners_of H c.1.2) (value_of H c.1.2) c.2)) cs ->
  Forall2 (fun p c => presents p (exec_sread cf c.1.1 c.2) /\ only_reads p) ps cs ->
  exists s', crun sched (start H ((fun p => Job p H []) <$> ps)) = inl s' /\ cs_mem s' = H /\
    forall i c th a, cs !! i = Some c -> cs_thr s' !! i = Some th -> finished th a ->
      sread_spec c.1.2 (owners_of H c.1.2) (value_of H c.1.2) c.2 = Some a.
Proof.
  intros He H Hcs Hps.
  assert (Hg : good H vars).
  { pose proof (exec_spops_good cf true ops [] (World ∅ orc None 0 0) (good_start _ _ _ _) ltac:(done)) as Hr. unfold ends in Hr. by rewrite He in Hr. }
  set (spec := fun c : loc * handle * sread_call => sread_spec c.1.2 (owners_of H c.1.2) (value_of H c.1.2) c.2).
  assert (exists as_, Forall2 (fun c a => holds H c.1.1 c.1.2 /\ spec c = Some a) cs as_) as [as_ Has].
  { clear -Hcs. induction Hcs as [|c cs [Hh [a Ha]] _ [as_ IH]]; [by exists []|exists (a :: as_); by constructor]. }
  destruct (C80_readers _ _ H ps ((fun c => exec_sread cf c.1.1 c.2) <$> cs) as_ sched) as (s' & Hr & Hm & Hf).
  - apply Forall2_fmap_r. eapply Forall2_impl; [done|]. by intros ?? [? _].
  - eapply Forall2_Forall_l; [done|]. apply Forall_forall. by intros ? _ ? [_ ?].
  - apply Forall2_fmap_l. eapply Forall2_impl; [done|]. intros [[l x] c] a [Hh Ha]. simpl in *.
    destruct (shows cf (World H [] None 0 0) l x (proj1 Hg) Hh) as (H1 & H2 & H3 & H4 & H5). fold (owners_of H x) in H2, H3, H4. cbv zeta in *.
    unfold spec in Ha. simpl in *. change (match h_rc x with Some c => owners H c | None => 0 end) with (owners_of H x) in *.
    destruct c; simpl in *; unfold bind, ret.
    + rewrite H2. by injection Ha as <-.
    + rewrite H3. by injection Ha as <-.
    + rewrite H4. by injection Ha as <-.
    + rewrite H1. by injection Ha as <-.
    + destruct (h_kind x) eqn:Ek; [|done]. unfold value_of in Ha. destruct (h_rc x) as [c|] eqn:Ec; [|done]. simpl in Ha.
      destruct (H5 c eq_refl eq_refl) as (_ & v & hs & Hd). rewrite Hd.
      assert (Hget : get_handle l (World H [] None 0 0) = Done x (World H [] None 0 0)).
      { assert (Hrun : runs (get_handle l) (World H [] None 0 0) (fun y w' => y = x /\ w' = World H [] None 0 0)) by (by eapply runs_get_handle).
        by destruct Hrun as (y & w' & Hrun & -> & ->). }
      pose proof (holds_ptr _ _ _ _ _ (proj1 Hg) Hh) as Hp. rewrite Ec in Hp.
      unfold sp_deref, bind, get_block, load, assert_ in Hd. rewrite Hget, Hp in Hd. simpl in Hd. rewrite andb_false_r in Hd.
      unfold ret, bind, get_heap in Hd. cbn in Hd. destruct (H !! c) as [[y|b]|]; [done| |done]. cbn in Hd. destruct (cb_val b) as [[v' hs']|]; [|done]. by simplify_eq/=.
  - exists s'. split; [done|]. split; [done|]. intros i c th a Hc Hth Hfin. pose proof (Hf i th a Hth Hfin) as Ha.
    destruct (Forall2_lookup_l _ _ _ _ _ Has Hc) as (a' & Ha' & _ & ?). unfold spec in *. by simplify_eq.
Qed.
Print Assumptions C80_sp_readers.

(** ** Examples *)

(** Three threads, one step each in turn; the allocation of the third one fails. *)
Definition spt1 : list (spop nat) := [SoMake 1 [KShared]; SoMake 2 [KShared]; SoAssign (EMem (EVar 0) 0) (EVar 1); SoCopy (EVar 0); SoWeak (EVar 1); SoDrop 1].
Definition spt2 : list (spop nat) := [SoMake 3 []; SoCopy (EVar 0); SoWeak (EVar 1); SoLock (EVar 2); SoReset (EVar 0)].
Definition sp_step ops : prog (scell nat) (list Z) := proj1_sig (st_sp_thread nat scD ops).
Lemma sp_step_presents ops : presents (sp_step ops) (sp_thread scD ops).
Proof. exact (proj1 (proj2_sig (st_sp_thread nat scD ops))). Qed.
Example C80_sp_example :
  let ts := [(spt1, []); (spt2, []); (spt2, [EvFail 9])] in
  let ps := [sp_step spt1; sp_step spt2; sp_step spt2] in
  Forall2 (fun p t => presents p (sp_thread scD t.1)) ps ts /\ Forall (fun t => Forall shared_members t.1) ts /\
  results (crun (concat (replicate 300 [0; 1; 2])) (start ∅ (zip_with (fun p t => Job p ∅ t.2) ps ts))) =
    Some ([Some [2; 2; 1]%Z; Some [0; 2; 2; 2]%Z; Some [0; 0; 0]%Z], []).
Proof.
  intros ts ps. split_and!.
  - repeat constructor; apply sp_step_presents.
  - repeat constructor.
  - by vm_compute.
Qed.


Example C80_sp_plain_example o vars w :
  exec_spops scD spt2 [] (World ∅ o None 0 0) = Done vars w -> no_owner_cycle (w_heap w).
Proof. apply C80_sp_plain. repeat constructor. Qed.

(** Three threads ask the same shared_ptr and a weak_ptr to the same object. *)
Definition sread_step l c : prog (scell nat) (pans nat) := proj1_sig (st_exec_sread true scD l c).
Example C80_sp_readers_example :
  exists vars w a b x y, exec_spops scD [SoMake 5 []; SoWeak (EVar 0)] [] (World ∅ [] None 0 0) = Done vars w /\ vars = [a; b] /\
  let H := w_heap w in
  let cs := [((a, 0), x, SrCount); ((a, 0), x, SrDeref); ((b, 0), y, SrBool)] in
  let ps := (fun c => sread_step c.1.1 c.2) <$> cs in
  Forall (fun c => holds H c.1.1 c.1.2 /\ is_Some (sread_spec c.1.2 (owners_of H c.1.2) (value_of H c.1.2) c.2)) cs /\
  Forall2 (fun p c => presents p (exec_sread scD c.1.1 c.2) /\ only_reads p) ps cs /\
  fst <$> results (crun (concat (replicate 40 [0; 1; 2])) (start H ((fun p => Job p H []) <$> ps))) =
    Some [Some (PaNum 1); Some (PaVal 5); Some (PaBool true)].
Proof.
  do 6 eexists. split; [vm_compute; reflexivity|]. split; [reflexivity|]. split_and!.
  - repeat constructor; vm_compute; eauto.
  - repeat constructor; try exact (proj1 (proj2_sig (st_exec_sread true scD _ _))); exact (proj2 (proj2_sig (st_exec_sread true scD _ _)) eq_refl).
  - by vm_compute.
Qed.

(** Two threads that copy the same shared_ptr are not covered, and the count
    goes wrong: one increment is lost. *)
Definition copy_step : prog (scell nat) handle := proj1_sig (st_sp_copy nat scD (1%positive, 0)).
Example C80_sp_race :
  let H : gmap addr (scell nat) := {[ 1%positive := SVar (Handle KShared (Some 2%positive) (Some 2%positive)); 2%positive := SBlock (CB 0 1 0 (Some (7, []))) ]} in
  exists s', crun (round_robin 40) (start H [Job copy_step H []; Job copy_step H []]) = inl s' /\
    (forall t, t ∈ cs_thr s' -> exists a, finished t a) /\
    cs_mem s' !! 2%positive = Some (SBlock (CB 0 2 0 (Some (7, [])))).
Proof.
  intros H.
  eexists. split; [vm_compute; reflexivity|]. split; [|done].
  intros t Ht. simpl in Ht. repeat (apply elem_of_cons in Ht as [->|Ht]; [eexists; reflexivity|]). by apply elem_of_nil in Ht.
Qed.
