(** * Property C79: threads that share handles, with a lock around every statement

    Threads work on common variables and on objects that may have handles as
    members.  A lock is held during each statement, so that a schedule picks a
    thread for one whole statement.  Statements: SpHistSpec.v. *)
From Verif Require Import SpHist PropSp.

Section locked.
  Context {V : Type} (cf : cfg V).

  (** [sched] names the thread whose turn it is; [progs]: what the threads
      still have to execute.  Returns the variables and what is left. *)
  Fixpoint locked_run (sched : list nat) (progs : list (list (spop V))) (vars : list addr) : M (scell V) (list addr * list (list (spop V))) :=
    match sched with
    | [] => ret (vars, progs)
    | i :: sched =>
        match progs !! i with
        | Some (op :: rest) =>
            let! vars := exec_spop cf op vars in
            locked_run sched (<[i := rest]> progs) vars
        | _ => locked_run sched progs vars
        end
    end.
End locked.

Lemma locked_good V (cf : cfg V) sched : forall progs vars w,
  good (w_heap w) vars -> members_shared (w_heap w) -> Forall (Forall shared_members) progs ->
  runs (locked_run cf sched progs vars) w (fun r w' => good (w_heap w') r.1 /\ members_shared (w_heap w') /\ Forall (Forall shared_members) r.2).
Proof.
  induction sched as [|i sched IH]; intros progs vars w Hg Hm Hf; cbn [locked_run]; [by apply runs_ret|].
  destruct (progs !! i) as [[|op rest]|] eqn:Ei; [by apply IH| |by apply IH].
  assert (Hi : Forall shared_members (op :: rest)) by (by eapply Forall_lookup_1). inversion Hi; subst.
  rbind. eapply runs_mono; [apply ends_runs; apply (exec_spop_after cf false); [done|by intros _; apply no_weak_cycle_step, members_shared_safe]|].
  intros vars' w' (Hg' & _ & Hm'). apply IH; [done|by apply Hm'|]. by apply Forall_insert.
Qed.
Lemma locked_ends V (cf : cfg V) sched : forall progs vars w, good (w_heap w) vars ->
  ends true (locked_run cf sched progs vars) w (fun r w' => good (w_heap w') r.1).
Proof.
  induction sched as [|i sched IH]; intros progs vars w Hg; cbn [locked_run]; [by apply ends_ret|].
  destruct (progs !! i) as [[|op rest]|] eqn:Ei; [by apply IH| |by apply IH].
  apply ends_bind. eapply ends_mono; [apply (exec_spop_after cf true); [done|done]|]. intros vars' w' (Hg' & _). by apply IH.
Qed.

(** Any number of threads with any statements, in any order in which they get
    the lock; members are shared_ptrs.  There is no undefined behaviour; every
    handle shows the right count and shared_ptrs lead to living objects; when
    all variables are gone, and no objects own each other in a cycle, nothing
    is left. *)
Theorem C79_locked_members_partial V (cf : cfg V) (progs : list (list (spop V))) sched orc :
  Forall (Forall shared_members) progs ->
  runs (locked_run cf sched progs []) (World ∅ orc None 0 0) (fun r w =>
    (forall l x, holds (w_heap w) l x -> handle_shows cf w l x) /\ sp_state (w_heap w) /\
    runs (drop_all cf r.1) w (fun _ w' => sp_state (w_heap w') /\ (no_owner_cycle (w_heap w) -> w_heap w' = ∅))).
Proof.
  intros Hf. eapply runs_mono; [apply locked_good; [apply good_start|apply members_start|done]|]. intros [vars rest] w (Hg & Hm & _). simpl in *.
  split; [intros l x Hx; by apply shows; [apply Hg|]|]. split; [by apply inv_state, Hg|].
  eapply runs_mono; [apply ends_runs, (drop_all_good cf false); [done|intros _; by apply drops_safe, members_shared_safe]|]. intros [] w' (Hg' & Hfew & _).
  split; [by apply inv_state, Hg'|]. intros Hc. apply no_vars_empty; [done|]. by eapply fewer_owner.
Qed.
Print Assumptions C79_locked_members_partial.

(** Members of any kind: either a freed control block is used (C47), or the
    counts are right. *)
Theorem C79_locked_any_partial V (cf : cfg V) (progs : list (list (spop V))) sched orc :
  match locked_run cf sched progs [] (World ∅ orc None 0 0) with
  | Done _ w => forall l x, holds (w_heap w) l x -> handle_shows cf w l x
  | Fault f => f = FFreed
  end.
Proof.
  pose proof (locked_ends V cf sched progs [] (World ∅ orc None 0 0) (good_start _ _ _ _)) as Hr. unfold ends in Hr.
  destruct (locked_run _ _ _ _ _) as [r w|f]; [|by destruct Hr]. intros l x Hx. apply shows; [|done]. apply Hr.
Qed.
Print Assumptions C79_locked_any_partial.

(** Two threads on common variables: one makes a list of two nodes and drops
    its variable for the second one; the other one copies the head, drops the
    original and cuts the list. *)
Definition lt1 : list (spop nat) := [SoMake 1 [KShared]; SoMake 2 []; SoAssign (EMem (EVar 0) 0) (EVar 1); SoWeak (EVar 1); SoDrop 0].
Definition lt2 : list (spop nat) := [SoCopy (EVar 0); SoDrop 0; SoReset (EMem (EVar 1) 0); SoReset (EVar 0)].
Example C79_locked_members_example :
  Forall (Forall shared_members) [lt1; lt2] /\
  runs (let! r := locked_run scD [0; 0; 1; 0; 1; 0; 0] [lt1; lt2] [] in
        let! h := get_heap in
        let! a := look_sp (EVar 0) r.1 in
        let! b := look_sp (EMem (EVar 0) 0) r.1 in
        let! c := look_sp (EVar 1) r.1 in
        do! drop_all scD r.1 in
        ret (length <$> r.2, size h, [a; b; c])) (sw0 [])
    (fun r w => r = ([0; 2], 4, [(1%Z, Some 1); (1%Z, Some 2); (1%Z, None)]) /\ w_heap w = ∅).
Proof. split; [repeat (apply List.Forall_cons || apply List.Forall_nil || exact I || reflexivity || simpl)|compute_run]. Qed.
