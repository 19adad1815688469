(** * Property C80 for lists *)
From Verif Require Import ListExtra PropList ConcList PropConc.

(** ** The program of a thread *)

Fixpoint walk_lists {V} (cf : cfg V) (os : list lst_obj) : M (lcell V) (list (list V)) :=
  match os with
  | [] => ret []
  | o :: os => let! l := lst_walk cf o in let! ls := walk_lists cf os in ret (l :: ls)
  end.
(** A thread that creates [k] lists, makes the calls [ops] on them, visits
    all elements and destroys the lists; returns what the calls reported and
    what was visited. *)
Definition list_thread {V} (cf : cfg V) comp (k : nat) (ops : list (lop V)) : M (lcell V) (list (option error) * list (list V)) :=
  let! r := list_program cf comp k ops in
  let! ls := walk_lists cf r.1 in
  do! destroy_lists r.1 in
  ret (r.2, ls).

Lemma st_exec_lops V cf comp ops os : steps false (@exec_lops V cf comp ops os).
Proof. induction ops as [|op ops IH]; intros; cbn [exec_lops]; stpr IH. Defined.
Lemma st_walk_lists b V cf os : steps b (@walk_lists V cf os).
Proof. induction os as [|o os IH]; cbn [walk_lists]; stpr IH. Defined.
#[local] Hint Resolve st_exec_lops st_walk_lists : stdb.
Lemma st_list_thread V cf comp k ops : steps false (@list_thread V cf comp k ops).
Proof. unfold list_thread, list_program. stp. Defined.

Theorem C80_list_steps V (cf : cfg V) comp k ops : can_step (list_thread cf comp k ops).
Proof. destruct (st_list_thread V cf comp k ops) as [p [Hp _]]. by exists p. Qed.
Print Assumptions C80_list_steps.

Lemma runs_walk_lists V (cf : cfg V) os ls w : length os = length ls ->
  (forall i o l, os !! i = Some o -> ls !! i = Some l -> lst_shows cf w o l) -> walk_lists cf os w = Done ls w.
Proof.
  revert ls. induction os as [|o os IH]; intros [|l ls] Hl Hs; try done. simpl in *. unfold bind.
  destruct (Hs 0 o l eq_refl eq_refl) as (_ & _ & -> & _). rewrite (IH ls); [done|lia|]. intros i. apply (Hs (S i)).
Qed.
Lemma runs_list_thread V (cf : cfg V) comp k ops w :
  runs (list_thread cf comp k ops) w (fun r w' => lops_spec comp ops (replicate k []) r.1 r.2 /\ w_heap w' = w_heap w).
Proof.
  unfold list_thread. rbind. eapply runs_mono; [apply C17_list_history|]. intros [os es] w' (Hl & ls & Hs & Hll & Hsh & Hd). simpl in *.
  rbind. eexists _, _. split; [apply runs_walk_lists; [by rewrite Hl, Hll|exact Hsh]|]. rbind.
  eapply runs_mono; [exact Hd|]. intros u w2 Hw2. by apply runs_ret.
Qed.

(** ** Different lists in different threads

    Any number of threads, each with lists of its own, each with any history
    of calls, with any failures, scheduled in any way: no undefined behaviour;
    a thread that has finished has got the answers and the elements that the
    specification of a history gives; when all have finished the memory is as
    before. *)
Theorem C80_lists V (cf : cfg V) comp H (ts : list (nat * list (lop V) * list event)) ps sched :
  Forall2 (fun p t => presents p (list_thread cf comp t.1.1 t.1.2)) ps ts ->
  exists s', crun sched (start H (zip_with (fun p t => Job p ∅ t.2) ps ts)) = inl s' /\ H ⊆ cs_mem s' /\
    (forall i t th r, ts !! i = Some t -> cs_thr s' !! i = Some th -> finished th r ->
       lops_spec comp t.1.2 (replicate t.1.1 []) r.1 r.2) /\
    ((forall th, th ∈ cs_thr s' -> exists r, finished th r) -> cs_mem s' = H).
Proof.
  intros Hps.
  apply (separate_threads (fun t => list_thread cf comp t.1 t.2) (fun t r => lops_spec comp t.2 (replicate t.1 []) r.1 r.2)); [|done].
  intros t w Ht Hw. rewrite <-Hw. apply runs_list_thread.
Qed.
Print Assumptions C80_lists.

(** ** Several threads read one list *)

(** Calls that do not change the list, and what they return for the elements [l]. *)
Inductive lread_call := LrSize | LrEmpty | LrFront | LrBack | LrAll | LrAllBackwards.
Inductive lans (V : Type) := LaNum (n : nat) | LaBool (b : bool) | LaElem (x : V) | LaList (l : list V).
Arguments LaNum {V}.
Arguments LaBool {V}.
Arguments LaElem {V}.
Arguments LaList {V}.
Definition exec_lread {V} (cf : cfg V) (o : lst_obj) (c : lread_call) : M (lcell V) (lans V) :=
  match c with
  | LrSize => let! n := lst_size cf o in ret (LaNum n)
  | LrEmpty => let! b := lst_empty o in ret (LaBool b)
  | LrFront => let! x := lst_front cf o in ret (LaElem x)
  | LrBack => let! x := lst_back cf o in ret (LaElem x)
  | LrAll => let! l := lst_walk cf o in ret (LaList l)
  | LrAllBackwards => let! l := lst_rwalk cf o in ret (LaList l)
  end.
Definition lread_spec {V} (l : list V) (c : lread_call) : option (lans V) :=
  match c with
  | LrSize => Some (LaNum (length l))
  | LrEmpty => Some (LaBool (bool_decide (l = [])))
  | LrFront => LaElem <$> head l
  | LrBack => LaElem <$> last l
  | LrAll => Some (LaList l)
  | LrAllBackwards => Some (LaList (reverse l))
  end.
Lemma st_exec_lread b {V} (cf : cfg V) o c : steps b (exec_lread cf o c).
Proof. unfold exec_lread. stp. Defined.

Theorem C80_list_const V (cf : cfg V) o c : reading (exec_lread cf o c).
Proof. destruct (st_exec_lread true cf o c) as [p [Hp Hr]]. exists p. auto. Qed.
Print Assumptions C80_list_const.
Theorem C80_list_equal_const V (cf : cfg V) eqb o o2 : reading (lst_equal cf eqb o o2).
Proof. destruct (st_lst_equal true V cf eqb o o2) as [p [Hp Hr]]. exists p. auto. Qed.
Print Assumptions C80_list_equal_const.

(** Any number of threads, each making one of these calls on the same list. *)
Theorem C80_list_readers V (cf : cfg V) H o l (cs : list lread_call) (ps : list (prog (lcell V) (lans V))) sched :
  lst_shows cf (World H [] None 0 0) o l -> Forall (fun c => is_Some (lread_spec l c)) cs ->
  Forall2 (fun p c => presents p (exec_lread cf o c) /\ only_reads p) ps cs ->
  exists s', crun sched (start H ((fun p => Job p H []) <$> ps)) = inl s' /\ cs_mem s' = H /\
    forall i c th a, cs !! i = Some c -> cs_thr s' !! i = Some th -> finished th a -> lread_spec l c = Some a.
Proof.
  intros (H1 & H2 & H3 & H4 & H5 & H6) Hleg Hps. apply (shared_readers (exec_lread cf o)); [|done..].
  intros c a. destruct c; simpl; unfold bind, ret.
  - rewrite H1. by intros [= ->].
  - rewrite H2. by intros [= ->].
  - intros (x & Hx & ->)%fmap_Some. destruct l as [|y l0]; simplify_eq/=. by rewrite (H5 _ _ eq_refl).
  - intros (x & Hx & ->)%fmap_Some. apply last_Some in Hx as [l0 Hl0]. by rewrite (H6 _ _ Hl0).
  - rewrite H3. by intros [= ->].
  - rewrite H4. by intros [= ->].
Qed.
Print Assumptions C80_list_readers.

(** ** Examples *)

Definition lops1 : list (lop nat) := [LoPushBack 0 (HVal 3); LoPushFront 0 (HVal 1); LoPushBack 1 (HVal 2); LoMerge 0 1].
Definition lops2 : list (lop nat) := [LoPushBack 0 (HVal 9); LoPushBack 0 (HVal 8); LoPushBack 0 (HVal 7); LoSort 0].
(** Two threads; one allocation of the second one fails. *)
Example C80_lists_example :
  let ts := [(2, lops1, []); (1, lops2, [EvOk 1; EvOk 1; EvFail 0])] in
  let ps := [proj1_sig (st_list_thread nat lcD Nat.ltb 2 lops1); proj1_sig (st_list_thread nat lcD Nat.ltb 1 lops2)] in
  Forall2 (fun p t => presents p (list_thread lcD Nat.ltb t.1.1 t.1.2)) ps ts /\
  results (crun (round_robin (3 * 2000)) (start ∅ (zip_with (fun p t => Job p ∅ t.2) ps ts))) =
    Some ([Some ([None; None; None; None], [[1; 2; 3]; []]); Some ([None; Some EBadAlloc; None; None], [[7; 9]])], []).
Proof.
  intros ts ps. split.
  - constructor; [exact (proj1 (proj2_sig (st_list_thread nat lcD Nat.ltb 2 lops1)))|].
    constructor; [exact (proj1 (proj2_sig (st_list_thread nat lcD Nat.ltb 1 lops2)))|constructor].
  - vm_compute. reflexivity.
Qed.

(** Two threads read the list 1,2,3,4. *)
Example C80_list_readers_example :
  let H := lists_heap 0 ex_ls in
  let cs := [LrAll; LrBack] in
  let ps := (fun c => proj1_sig (st_exec_lread true lcD oA c)) <$> cs in
  lst_shows lcD (World H [] None 0 0) oA [1; 2; 3; 4] /\
  Forall (fun c => is_Some (lread_spec [1; 2; 3; 4] c)) cs /\
  Forall2 (fun p c => presents p (exec_lread lcD oA c) /\ only_reads p) ps cs /\
  option_map fst (results (crun (round_robin 400) (start H ((fun p => Job p H []) <$> ps)))) = Some [Some (LaList [1; 2; 3; 4]); Some (LaElem 4)].
Proof.
  intros H cs ps. split.
  { split_and!; [by vm_compute..| |].
    - intros x l0 ?; simplify_eq. by vm_compute.
    - intros x l0 Hl. apply (f_equal last) in Hl. rewrite last_snoc in Hl. simplify_eq/=. by vm_compute. }
  split; [repeat constructor; simpl; eauto|]. split.
  { assert (forall c, presents (proj1_sig (st_exec_lread true lcD oA c)) (exec_lread lcD oA c) /\
      only_reads (proj1_sig (st_exec_lread true lcD oA c))) as Hc.
    { intros c. split; [exact (proj1 (proj2_sig (st_exec_lread true lcD oA c)))|].
      exact (proj2 (proj2_sig (st_exec_lread true lcD oA c)) eq_refl). }
    constructor; [apply Hc|]. constructor; [apply Hc|constructor]. }
  vm_compute. reflexivity.
Qed.

(** One thread erases an element while another one visits all of them: a schedule with undefined behaviour. *)
Definition drop_first : M (lcell nat) (lans nat) := do! lst_pop_front lcD oA in ret (LaNum 0).
Lemma st_drop_first : steps false drop_first.
Proof. unfold drop_first. stp. Defined.
Example C80_list_race :
  let H := lists_heap 0 ex_ls in
  exists sched, crun sched (start H [Job (proj1_sig st_drop_first) H []; Job (proj1_sig (st_exec_lread true lcD oA LrAll)) H []]) = inr FFreed.
Proof. exists (replicate 6 1 ++ replicate 100 0 ++ replicate 60 1). vm_compute. reflexivity. Qed.
