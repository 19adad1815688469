(** * Property C70: histories over several vectors

    [rops_spec] (VecRowSpec.v) gives the meaning of the calls on plain lists. *)
From Verif Require Import VecExtra VecRow PropVector.

(** Any history of calls on [k] new vectors with default constructed
    allocators: no undefined behaviour, and afterwards every vector shows the
    list that the specification gives for it. *)
Theorem C70_history V (cf : cfg V) k ops w :
  cfg_ok cf -> growth_ok cf -> Forall (rop_legal cf) ops ->
  runs (exec_rops cf ops (replicate k (vec_new (c_dflt cf)))) w (fun r w' =>
    length r.1 = k /\
    exists ls, rops_spec ops (replicate k []) r.2 ls /\ length ls = k /\
      forall i v l, r.1 !! i = Some v -> ls !! i = Some l -> vec_shows cf w' v l).
Proof.
  intros Hcf Hg Hl. eapply runs_exec_rops; [done..|by apply row_new|by apply heap_is_empty|].
  intros vs' es ls' hv' w' Hr Hh Hs Hlen. rewrite replicate_length in Hlen. split; [done|]. exists ls'. split; [done|].
  split; [by rewrite <-(row_length _ _ _ _ Hr)|]. intros i v l Hi Hli.
  destruct (row_get_at _ _ _ _ _ _ _ _ Hr Hh Hi) as (l0 & cap & h1 & h2 & Hl0 & _ & Ho & Hh1 & _). cbn in Hi. simplify_eq.
  by eapply owns_shows.
Qed.
Print Assumptions C70_history.

(** Destroying the vectors at the end frees exactly what the history allocated. *)
Theorem C70_no_leak V (cf : cfg V) k ops w :
  cfg_ok cf -> growth_ok cf -> Forall (rop_legal cf) ops ->
  runs (let! r := exec_rops cf ops (replicate k (vec_new (c_dflt cf))) in destroy_row r.1) w (fun _ w' => w_heap w' = w_heap w).
Proof.
  intros Hcf Hg Hl. rbind. eapply runs_exec_rops; [done..|by apply row_new|by apply heap_is_empty|].
  intros vs' es ls' hv' w' Hr Hh Hs Hlen. by eapply runs_destroy_row.
Qed.
Print Assumptions C70_no_leak.

Lemma rop_spec_others V (op : rop V) ls e ls' k : rop_spec op ls e ls' -> k ∉ rop_targets op -> ls' !! k = ls !! k.
Proof.
  assert (Hone : forall i R, on_vec i R ls e ls' -> k ∉ [i] -> ls' !! k = ls !! k).
  { intros i R Hs Hk. unfold on_vec in Hs. destruct (ls !! i); [|by destruct Hs as [_ ->]]. destruct Hs as (l' & _ & ->).
    apply list_lookup_insert_ne. intros ->. apply Hk. constructor. }
  assert (Hno : no_call ls e ls' -> ls' !! k = ls !! k) by (by intros [_ ->]).
  destruct op; simpl; intros Hs Hk; try (by eapply Hone);
    repeat (case_match; simplify_eq); try (by eapply Hone); try (by apply Hno); destruct Hs as [_ ->];
    rewrite ?list_lookup_insert_ne; try done; intros ->; apply Hk; set_solver.
Qed.

(** A call does not touch the vectors it does not name as its target: their
    objects stay the same, and their elements stay where they are. *)
Theorem C70_others V (cf : cfg V) op vs ls hv hf w :
  cfg_ok cf -> growth_ok cf -> rop_legal cf op -> row_own cf vs ls hv -> heap_is w hv hf -> w_err w = None ->
  runs (exec_rop cf op vs) w (fun vs' w' =>
    forall k v l, k ∉ rop_targets op -> vs !! k = Some v -> ls !! k = Some l ->
      vs' !! k = Some v /\ vec_shows cf w' v l /\
      forall i x, l !! i = Some x -> read (vec_pos v i) w' = Done x w').
Proof.
  intros Hcf Hg Hl Hr Hh He. eapply runs_mono; [by eapply runs_exec_rop|].
  intros vs' w' (ls' & hv' & Hr' & Hh' & Hs & _ & Hsame) k v l Hk Hv Hlk.
  rewrite <-(Hsame k Hk) in Hv. rewrite <-(rop_spec_others _ _ _ _ _ _ Hs Hk) in Hlk.
  destruct (row_get_at _ _ _ _ _ _ _ _ Hr' Hh' Hv) as (l0 & cap & h1 & h2 & Hl0 & _ & Ho & Hh1 & _). simplify_eq.
  split; [done|]. split; [by eapply owns_shows|]. intros i x Hi.
  destruct (runs_read_elem cf v l cap h1 i x w' (fun a w2 => a = x /\ w2 = w')) as (a & w2 & Hrd & -> & ->); try done.
  by eapply heap_sub.
Qed.
Print Assumptions C70_others.

(** three vectors of elements whose copies may fail: copies, ranges, moves and
    swaps between them, with a failing allocation and a failing copy *)
Example C70_example :
  let ops := [RoOne 0 (OpAssignRange [1; 2; 3]); RoCopy 1 0; RoPushElem 1 0 2; RoAssignFrom 2 0 1 9; RoSwap 0 2;
              RoThrowingCopy 2 1; RoThrowingCopy 2 1; RoMove 1 0; RoAssignElem 1 4 1 1] in
  cfg_ok cfD /\ growth_ok cfD /\ Forall (rop_legal cfD) ops /\
  runs (exec_rops cfD ops (replicate 3 (vec_new 0))) (w_start (replicate 20 (EvOk 9) ++ [EvFail 0; EvOk 1; EvOk 1; EvFail 5])) (fun r w' =>
    r.2 = [None; None; None; None; None; Some (EElem 0); Some (EElem 5); None; None] /\
    r.1 = [vec_new 0; Vec 0 (Ptr 1 0) (Ptr 1 4) (Ptr 1 4); Vec 0 (Ptr 10 0) (Ptr 10 3) (Ptr 10 3)] /\
    w_heap w' = {[ 1%positive := Block 0 4 4 (map_seq 0 [3; 3; 3; 3]); 10%positive := Block 0 3 3 (map_seq 0 [1; 2; 3]) ]}) /\
  rops_spec ops (replicate 3 []) [None; None; None; None; None; Some (EElem 0); Some (EElem 5); None; None] [[]; [3; 3; 3; 3]; [1; 2; 3]].
Proof.
  split_and!; [apply cfD_ok..|repeat constructor; vm_compute; congruence|compute_run|].
  simpl. unfold on_vec, becomes, no_call. simpl. repeat (eexists; split; [by repeat econstructor|]). done.
Qed.
