(** * Property C80 for vectors *)
From Verif Require Import VecExtra VecRow PropVector ConcVec PropConc.

(** ** The program of a thread *)

(** All elements of a vector, read by index. *)
Fixpoint read_from {V} (cf : cfg V) (v : vec_obj) (i n : nat) : M (vblock V) (list V) :=
  match n with
  | 0 => ret []
  | S n => let! x := vec_at cf v i in let! l := read_from cf v (S i) n in ret (x :: l)
  end.
Definition read_vec {V} (cf : cfg V) (v : vec_obj) : M (vblock V) (list V) :=
  let! n := vec_size v in read_from cf v 0 n.
Fixpoint read_row {V} (cf : cfg V) (vs : list vec_obj) : M (vblock V) (list (list V)) :=
  match vs with
  | [] => ret []
  | v :: vs => let! l := read_vec cf v in let! ls := read_row cf vs in ret (l :: ls)
  end.
(** A thread that creates [k] vectors, makes the calls [ops] on them, reads
    all elements and destroys the vectors; returns what the calls reported and
    what was read. *)
Definition vec_thread {V} (cf : cfg V) (k : nat) (ops : list (rop V)) : M (vblock V) (list (option error) * list (list V)) :=
  let! r := exec_rops cf ops (replicate k (vec_new (c_dflt cf))) in
  let! ls := read_row cf r.1 in
  do! destroy_row r.1 in
  ret (r.2, ls).

(** ** It consists of single steps *)

Lemma st_vec_swap {V} (cf : cfg V) v o : steps false (hvec_copy_assign cf v o).
Proof. unfold hvec_copy_assign, hvec_copy_ctor. stp. Defined.
#[local] Hint Resolve st_vec_swap : stdb.
Lemma st_with_vec V vs i k : (forall v, steps false (k v)) -> steps false (@with_vec V vs i k).
Proof. intros. unfold with_vec. stp; auto. Defined.
Lemma st_with_two V vs i j k : (forall v o, steps false (k v o)) -> steps false (@with_two V vs i j k).
Proof. intros. unfold with_two. apply st_with_vec. intros. apply st_with_vec. auto. Defined.
Lemma st_with_elem V cf vs o q k : (forall a, steps false (k a)) -> steps false (@with_elem V cf vs o q k).
Proof. intros. unfold with_elem. stp; auto. Defined.
Lemma st_exec_rop V cf op vs : steps false (@exec_rop V cf op vs).
Proof.
  unfold exec_rop, put. destruct op; repeat case_decide; stp;
    repeat (first [apply st_with_two; intros|apply st_with_vec; intros|apply st_with_elem; intros]); try case_decide; stp.
Defined.
#[local] Hint Resolve st_exec_rop : stdb.
Lemma st_exec_rops V cf ops vs : steps false (@exec_rops V cf ops vs).
Proof. revert vs. induction ops as [|op ops IH]; intros; cbn [exec_rops]; stpr IH. Defined.
Lemma st_destroy_row V vs : steps false (@destroy_row V vs).
Proof. induction vs as [|v vs IH]; cbn [destroy_row]; stpr IH. Defined.
Lemma st_read_from b V cf v i n : steps b (@read_from V cf v i n).
Proof. revert i. induction n as [|n IH]; intros; cbn [read_from]; stpr IH. Defined.
#[local] Hint Resolve st_exec_rops st_destroy_row st_read_from : stdb.
Lemma st_read_vec b V cf v : steps b (@read_vec V cf v).
Proof. unfold read_vec. stp. Defined.
#[local] Hint Resolve st_read_vec : stdb.
Lemma st_read_row b V cf vs : steps b (@read_row V cf vs).
Proof. induction vs as [|v vs IH]; cbn [read_row]; stpr IH. Defined.
#[local] Hint Resolve st_read_row : stdb.
Lemma st_vec_thread V cf k ops : steps false (@vec_thread V cf k ops).
Proof. unfold vec_thread. stp. Defined.

Theorem C80_vec_steps V (cf : cfg V) k ops : can_step (vec_thread cf k ops).
Proof. destruct (st_vec_thread V cf k ops) as [p [Hp _]]. by exists p. Qed.
Print Assumptions C80_vec_steps.

(** ** Alone it does what the specification says *)

Lemma runs_read_from V (cf : cfg V) v l w i n : vec_shows cf w v l -> i + n = length l ->
  read_from cf v i n w = Done (drop i l) w.
Proof.
  intros (_ & _ & _ & Hat & _). revert i. induction n as [|n IH]; intros i Hi; simpl.
  - rewrite drop_ge by lia. done.
  - destruct (lookup_lt_is_Some_2 l i) as [x Hx]; [lia|]. unfold bind. rewrite (Hat i x Hx), IH by lia. unfold ret. f_equal.
    symmetry. by apply drop_S.
Qed.
Lemma runs_read_vec V (cf : cfg V) v l w : vec_shows cf w v l -> read_vec cf v w = Done l w.
Proof. intros Hs. unfold read_vec, bind. rewrite (proj1 Hs). by rewrite (runs_read_from V cf v l) by done. Qed.
Lemma runs_read_row V (cf : cfg V) vs ls w : length vs = length ls ->
  (forall i v l, vs !! i = Some v -> ls !! i = Some l -> vec_shows cf w v l) -> read_row cf vs w = Done ls w.
Proof.
  revert ls. induction vs as [|v vs IH]; intros [|l ls] Hl Hs; try done. simpl in *. unfold bind.
  rewrite (runs_read_vec V cf v l) by (by apply (Hs 0)). rewrite (IH ls); [done|lia|]. intros i. apply (Hs (S i)).
Qed.

Lemma runs_vec_thread V (cf : cfg V) k ops w : cfg_ok cf -> growth_ok cf -> Forall (rop_legal cf) ops ->
  runs (vec_thread cf k ops) w (fun r w' => rops_spec ops (replicate k []) r.1 r.2 /\ w_heap w' = w_heap w).
Proof.
  intros Hcf Hg Hl. unfold vec_thread. rbind. eapply runs_exec_rops; [done..|by apply row_new|by apply heap_is_empty|].
  intros vs' es ls' hv' w' Hr Hh Hs Hlen. rewrite replicate_length in Hlen. simpl. rbind. eexists _, _. split.
  { apply runs_read_row; [by eapply row_length|]. intros i v l Hi Hli.
    destruct (row_get_at _ _ _ _ _ _ _ _ Hr Hh Hi) as (l0 & cap & h1 & h2 & Hl0 & _ & Ho & Hh1 & _). simplify_eq. by eapply owns_shows. }
  rbind. eapply runs_destroy_row; [done..|]. apply runs_ret. by split.
Qed.

(** ** Different vectors in different threads

    Any number of threads, each with vectors of its own, each with any history
    of calls, with any failures, scheduled in any way: no undefined behaviour;
    a thread that has finished has got the answers and the elements that the
    specification of a history gives; when all have finished the memory is as
    before. *)
Theorem C80_vectors V (cf : cfg V) H (ts : list (nat * list (rop V) * list event)) ps sched :
  cfg_ok cf -> growth_ok cf -> Forall (fun t => Forall (rop_legal cf) t.1.2) ts ->
  Forall2 (fun p t => presents p (vec_thread cf t.1.1 t.1.2)) ps ts ->
  exists s', crun sched (start H (zip_with (fun p t => Job p ∅ t.2) ps ts)) = inl s' /\ H ⊆ cs_mem s' /\
    (forall i t th r, ts !! i = Some t -> cs_thr s' !! i = Some th -> finished th r ->
       rops_spec t.1.2 (replicate t.1.1 []) r.1 r.2) /\
    ((forall th, th ∈ cs_thr s' -> exists r, finished th r) -> cs_mem s' = H).
Proof.
  intros Hcf Hg Hl Hps.
  apply (separate_threads (fun t => vec_thread cf t.1 t.2) (fun t r => rops_spec t.2 (replicate t.1 []) r.1 r.2)); [|done].
  intros t w Ht Hw. rewrite <-Hw. apply runs_vec_thread; [done..|]. apply elem_of_list_fmap in Ht as (t' & -> & Ht).
  rewrite Forall_forall in Hl. by apply Hl.
Qed.
Print Assumptions C80_vectors.

(** ** Several threads read one vector *)

(** Calls that do not change the vector, and what they return for the list [l]. *)
Inductive vread := VrSize | VrEmpty | VrAt (i : nat) | VrFront | VrBack | VrAll.
Inductive vans (V : Type) := VaNum (n : nat) | VaBool (b : bool) | VaElem (x : V) | VaList (l : list V).
Arguments VaNum {V}.
Arguments VaBool {V}.
Arguments VaElem {V}.
Arguments VaList {V}.
Definition exec_vread {V} (cf : cfg V) (v : vec_obj) (c : vread) : M (vblock V) (vans V) :=
  match c with
  | VrSize => let! n := vec_size v in ret (VaNum n)
  | VrEmpty => ret (VaBool (vec_empty v))
  | VrAt i => let! x := vec_at cf v i in ret (VaElem x)
  | VrFront => let! x := vec_front cf v in ret (VaElem x)
  | VrBack => let! x := vec_back cf v in ret (VaElem x)
  | VrAll => let! l := read_vec cf v in ret (VaList l)
  end.
Definition vread_spec {V} (l : list V) (c : vread) : option (vans V) :=
  match c with
  | VrSize => Some (VaNum (length l))
  | VrEmpty => Some (VaBool (bool_decide (l = [])))
  | VrAt i => VaElem <$> l !! i
  | VrFront => VaElem <$> head l
  | VrBack => VaElem <$> last l
  | VrAll => Some (VaList l)
  end.

Theorem C80_vec_const V (cf : cfg V) v c : reading (exec_vread cf v c).
Proof.
  assert (steps true (exec_vread cf v c)) as [p [Hp Hr]] by (unfold exec_vread; stp). exists p. auto.
Qed.
Print Assumptions C80_vec_const.
Theorem C80_vec_equal_const V (eqb : V -> V -> bool) v o : reading (vec_equal eqb v o).
Proof. destruct (st_vec_equal true V eqb v o) as [p [Hp Hr]]. exists p. auto. Qed.
Print Assumptions C80_vec_equal_const.

(** Any number of threads, each making one of these calls on the same vector. *)
Theorem C80_vec_readers V (cf : cfg V) H v l (cs : list vread) (ps : list (prog (vblock V) (vans V))) sched :
  vec_shows cf (World H [] None 0 0) v l -> Forall (fun c => is_Some (vread_spec l c)) cs ->
  Forall2 (fun p c => presents p (exec_vread cf v c) /\ only_reads p) ps cs ->
  exists s', crun sched (start H ((fun p => Job p H []) <$> ps)) = inl s' /\ cs_mem s' = H /\
    forall i c th a, cs !! i = Some c -> cs_thr s' !! i = Some th -> finished th a -> vread_spec l c = Some a.
Proof.
  intros (H1 & H2 & H3 & H4 & H5 & H6) Hleg Hps. apply (shared_readers (exec_vread cf v)); [|done..].
  intros c a. destruct c; simpl; unfold bind, ret.
  - rewrite H1. by intros [= ->].
  - rewrite H3. by intros [= ->].
  - intros (x & Hx & ->)%fmap_Some. by rewrite (H4 _ _ Hx).
  - intros (x & Hx & ->)%fmap_Some. destruct l as [|y l0]; simplify_eq/=. by rewrite (H5 _ _ eq_refl).
  - intros (x & Hx & ->)%fmap_Some. apply last_Some in Hx as [l0 Hl0]. by rewrite (H6 _ _ Hl0).
  - rewrite (runs_read_vec V cf v l) by done. by intros [= ->].
Qed.
Print Assumptions C80_vec_readers.

(** ** Examples *)

Definition ops1 : list (rop nat) := [RoOne 0 (OpAssignRange [1; 2; 3]); RoCopy 1 0; RoPushElem 1 0 2].
Definition ops2 : list (rop nat) := [RoOne 0 (OpPush 7); RoOne 0 (OpPush 8); RoSwap 0 1].
Definition thread1 := proj1_sig (st_vec_thread nat cfD 2 ops1).
Definition thread2 := proj1_sig (st_vec_thread nat cfD 2 ops2).

(** Two threads with two vectors each; the second allocation of the second thread fails. *)
Example C80_vectors_example :
  let ts := [(2, ops1, []); (2, ops2, [EvOk 1; EvOk 1; EvFail 0])] in
  cfg_ok cfD /\ growth_ok cfD /\ Forall (fun t : nat * list (rop nat) * list event => Forall (rop_legal cfD) t.1.2) ts /\
  Forall2 (fun p t => presents p (vec_thread cfD t.1.1 t.1.2)) [thread1; thread2] ts /\
  results (crun (round_robin 400) (start ∅ (zip_with (fun p t => Job p ∅ t.2) [thread1; thread2] ts))) =
    Some ([Some ([None; None; None], [[1; 2; 3]; [1; 2; 3; 3]]); Some ([None; Some EBadAlloc; None], [[]; [7]])], []).
Proof.
  split; [apply cfD_ok|]. split; [apply cfD_ok|]. split; [repeat constructor; vm_compute; congruence|]. split.
  { repeat constructor; [exact (proj1 (proj2_sig (st_vec_thread nat cfD 2 ops1)))|exact (proj1 (proj2_sig (st_vec_thread nat cfD 2 ops2)))]. }
  vm_compute. reflexivity.
Qed.

(** The vector of the following examples: it holds 1, 2 and there is no room for a third element. *)
Definition shared : gmap addr (vblock nat) := {[ 1%positive := Block 0 2 2 (map_seq 0 [1; 2]) ]}.
Definition shared_vec : vec_obj := Vec 0 (Ptr 1 0) (Ptr 1 2) (Ptr 1 2).
Lemma st_exec_vread b {V} (cf : cfg V) v c : steps b (exec_vread cf v c).
Proof. unfold exec_vread. stp. Defined.

Example C80_vec_readers_example :
  let cs := [VrAll; VrAt 1] in
  let ps := (fun c => proj1_sig (st_exec_vread true cfD shared_vec c)) <$> cs in
  vec_shows cfD (World shared [] None 0 0) shared_vec [1; 2] /\
  Forall (fun c => is_Some (vread_spec [1; 2] c)) cs /\
  Forall2 (fun p c => presents p (exec_vread cfD shared_vec c) /\ only_reads p) ps cs /\
  exists H, results (crun (round_robin 40) (start shared ((fun p => Job p shared []) <$> ps))) = Some ([Some (VaList [1; 2]); Some (VaElem 2)], H).
Proof.
  intros cs ps. split.
  { split_and!; try done; [by exists 2| | |].
    - intros [|[|i]] x; simpl; intros ?; simplify_eq; done.
    - intros x l0 ?; simplify_eq. done.
    - intros x l0 Hl. destruct l0 as [|? [|? [|??]]]; simplify_eq/=. done. }
  split; [repeat constructor; simpl; eauto|]. split.
  { assert (forall c, presents (proj1_sig (st_exec_vread true cfD shared_vec c)) (exec_vread cfD shared_vec c) /\
      only_reads (proj1_sig (st_exec_vread true cfD shared_vec c))) as Hc.
    { intros c. split; [exact (proj1 (proj2_sig (st_exec_vread true cfD shared_vec c)))|].
      exact (proj2 (proj2_sig (st_exec_vread true cfD shared_vec c)) eq_refl). }
    constructor; [apply Hc|]. constructor; [apply Hc|constructor]. }
  eexists. vm_compute. reflexivity.
Qed.

(** A thread that appends to the vector while another one reads it: this is
    outside the theorems, and there is a schedule with undefined behaviour. *)
Definition append : M (vblock nat) (vans nat) := do! vec_push_back cfD shared_vec (AVal 3) in ret (VaNum 0).
Lemma st_append : steps false append.
Proof. unfold append. stp. Defined.
Example C80_vec_race :
  exists sched, crun sched (start shared [Job (proj1_sig st_append) shared []; Job (proj1_sig (st_exec_vread true cfD shared_vec VrAll)) shared []]) = inr FFreed.
Proof. exists ([1] ++ replicate 100 0 ++ replicate 10 1). vm_compute. reflexivity. Qed.
