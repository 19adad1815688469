(** * Property C68, continued: a comparison function that changes its mind

    In PropAny.v one arbitrary function serves a whole history.  Here every
    call of the history comes with a comparison function of its own, so a
    comparison function with a state (a counter, a random source, an order that
    is switched while the tree holds elements) is covered too, as long as it
    gives the same answer to the same question within one call. *)
From Verif Require Import RbExtra RbMulti RbAny RbHistSpec PropAny.
From Verif Require RbHist.

(** A history: each call with the comparison function that answers during it.
    Models the same calls as [exec_aops] of RbAnySpec.v. *)
Definition moody (V : Type) : Type := list ((V -> V -> bool) * aop V).
Fixpoint exec_moody {V} (cf : cfg V) (ops : moody V) (o : tset) : M (tcell V) (list (option error)) :=
  match ops with
  | [] => ret []
  | (comp, op) :: ops =>
      do! put_err None in
      do! exec_aop cf comp op o in
      let! e := get_err in
      let! rs := exec_moody cf ops o in
      ret (e :: rs)
  end.
(** Construction, the calls, destruction. *)
Definition moody_program {V} (cf : cfg V) (ops : moody V) : M (tcell V) (list (option error)) :=
  let! o := tset_new (c_dflt cf) in
  let! rs := exec_moody cf ops o in
  do! t_destroy o in
  ret rs.

Lemma exec_moody_spec V (cf : cfg V) ops o xs t hf w (Q : list (option error) -> world (tcell V) -> Prop) :
  sin (wk never) o xs (w_heap w) hf t ->
  (forall rs w', length rs = length ops -> (forall e, Some e ∈ rs -> tnode_error cf e) ->
     (exists ys t', sin (wk never) o ys (w_heap w') hf t') -> Q rs w') ->
  runs (exec_moody cf ops o) w Q.
Proof.
  revert xs t w Q. induction ops as [|[comp op] ops IH]; intros xs t w Q Hs HQ; simpl.
  - apply runs_ret. apply HQ; [done| |by exists xs, t]. intros e He. by apply elem_of_nil in He.
  - rbind. apply runs_put_err. rbind. eapply runs_mono; [eapply (exec_aop_spec cf comp op o xs t hf); [exact Hs|done]|].
    intros _ w' ((ys & t' & Hs') & Herr). cbv beta. rbind. apply runs_get_err. rbind. eapply IH; [exact Hs'|].
    intros rs w'' Hl Hrs Hend. apply runs_ret. apply HQ; [simpl; lia| |done].
    intros e [He|He]%elem_of_cons; [by apply Herr|by apply Hrs].
Qed.

(** Every call ends and leaves a tree, whatever each of the functions answers. *)
Theorem C68_moody_history V (cf : cfg V) (ops : moody V) o xs hf w :
  tree_is o xs hf w ->
  runs (exec_moody cf ops o) w (fun rs w' =>
    length rs = length ops /\ (forall e, Some e ∈ rs -> tnode_error cf e) /\ exists ys, tree_is o ys hf w').
Proof.
  intros [t Hs]%tree_is_sin. eapply exec_moody_spec; [exact Hs|]. intros rs w' Hl Hrs (ys & t' & Hs').
  split_and!; [done..|]. exists ys. apply tree_is_sin. by exists t'.
Qed.
Print Assumptions C68_moody_history.

Theorem C68_moody_program V (cf : cfg V) (ops : moody V) w :
  runs (moody_program cf ops) w (fun rs w' =>
    w_heap w' = w_heap w /\ length rs = length ops /\ (forall e, Some e ∈ rs -> tnode_error cf e)).
Proof.
  unfold moody_program. rbind. apply (new_spec (wk never)). intros a h' Ha Hs. rbind. eapply exec_moody_spec; [exact Hs|].
  intros rs w' Hl Hrs (ys & t' & Hs'). rbind. eapply destroy_spec; [exact Hs'|]. by apply runs_ret.
Qed.
Print Assumptions C68_moody_program.

(** Ascending insertions, then the order is turned round, then it is dropped
    altogether; an allocation fails on the way. *)
Example C68_moody_example :
  runs (moody_program acD [(Nat.ltb, AoInsert (ArgVal 5)); (Nat.ltb, AoInsert (ArgVal 3)); (Nat.ltb, AoInsert (ArgVal 8));
      (fun x y => Nat.ltb y x, AoInsert (ArgVal 9)); (fun x y => Nat.ltb y x, AoInsertEqual (ArgElem 0));
      (odd_comp, AoInsert (ArgVal 7)); (Nat.ltb, AoFind (ArgVal 5)); (fun _ _ => true, AoEraseKey (ArgVal 5)); (Nat.leb, AoWalk)])
    (World ∅ [EvOk 3; EvOk 4; EvFail 7; EvOk 6] None 0 0) (fun rs w' =>
    w_heap w' = ∅ /\ rs = [None; Some EBadAlloc; None; None; None; None; None; None; None]) /\
  runs (let! o := tset_new 0 in
        let! _ := exec_moody acD [(Nat.ltb, AoInsert (ArgVal 5)); (Nat.ltb, AoInsert (ArgVal 3));
          (fun x y => Nat.ltb y x, AoInsert (ArgVal 9)); (odd_comp, AoInsert (ArgVal 7))] o in
        t_walk o) (World ∅ [] None 0 0) (fun l _ => l = [9; 3; 7; 5]).
Proof. split; compute_run. Qed.
