(** * Properties C58, C59: which errors are reported

    The environment answers every allocation and every element construction
    or assignment that can fail: [EvOk] or [EvFail] (the list [w_orc] of the
    answers still to come; it counts as followed by successes).  The answers a
    call has consumed are therefore the allocations and constructions it has
    performed. *)
From Verif Require Import HonestList HonestAlgo.
From Verif Require HonestSet HonestMulti HonestSp PropSet.

(** An operation called with a clear error object reports an error exactly if
    one of the allocations and constructions it performed failed. *)
Definition exact_errors {C A} (m : M C A) : Prop := forall w a w',
  w_err w = None -> m w = Done a w' ->
  exists es, w_orc w = es ++ w_orc w' /\ (w_err w' = None <-> Forall answer_ok es).

(** It also does when the request exceeds a size limit. *)
Definition exact_errors_sized {C A} (m : M C A) : Prop := forall w a w',
  w_err w = None -> m w = Done a w' ->
  exists es, w_orc w = es ++ w_orc w' /\
    (w_err w' = None -> Forall answer_ok es) /\
    (Forall answer_ok es -> w_err w' = None \/ w_err w' = Some ELength \/ w_err w' = Some EBadAlloc).

(** It throws exactly in these cases; [thrown] extracts the exception from the
    result. *)
Definition exact_throws {C A} (m : M C A) (thrown : A -> option error) : Prop := forall w a w',
  m w = Done a w' ->
  exists es, w_orc w = es ++ w_orc w' /\ (thrown a = None <-> Forall answer_ok es).
Definition exact_throws_sized {C A} (m : M C A) (thrown : A -> option error) : Prop := forall w a w',
  m w = Done a w' ->
  exists es, w_orc w = es ++ w_orc w' /\
    (thrown a = None -> Forall answer_ok es) /\
    (Forall answer_ok es -> thrown a = None \/ thrown a = Some ELength \/ thrown a = Some EBadAlloc).

(** It asks the environment for nothing and leaves the error object alone. *)
Definition no_errors {C A} (m : M C A) : Prop := forall w a w',
  m w = Done a w' -> w_orc w' = w_orc w /\ w_err w' = w_err w.

Definition never (e : error) : Prop := False.

Lemma honest_exact {C A} (m : M C A) : honest never m -> exact_errors m.
Proof.
  intros Hm w a w' He Hr. destruct (Hm w a w' Hr) as (es & H1 & H2 & H3 & _). exists es. split; [done|]. split; [auto|].
  intros Hf. rewrite He in H3. specialize (H3 I Hf). by destruct (w_err w').
Qed.
Lemma honest_sized {C A} (m : M C A) : honest too_big m -> exact_errors_sized m.
Proof.
  intros Hm w a w' He Hr. destruct (Hm w a w' Hr) as (es & H1 & H2 & H3 & _). exists es. split_and!; [done|auto|].
  intros Hf. rewrite He in H3. specialize (H3 I Hf). destruct (w_err w') as [e|]; [|by left]. destruct H3 as [->| ->]; auto.
Qed.

Definition thrown_of {A} (r : A + error) : option error := match r with inl _ => None | inr e => Some e end.

#[local] Instance event_eq_dec : EqDecision event.
Proof. solve_decision. Defined.

(** ** C58 *)

Theorem C58_list V (cf : cfg V) comp op os : exact_errors (exec_lop cf comp op os).
Proof. apply honest_exact. sh. Qed.
Print Assumptions C58_list.

Theorem C58_set V (cf : cfg V) comp op os : exact_errors (RbHistSpec.exec_sop cf comp op os).
Proof. apply honest_exact. apply HonestSet.sh_exec_sop. Qed.
Print Assumptions C58_set.

Theorem C58_multi V (cf : cfg V) comp op os : exact_errors (RbMultiHistSpec.exec_mop cf comp op os).
Proof. apply honest_exact. apply HonestMulti.sh_exec_mop. Qed.
Print Assumptions C58_multi.

Theorem C58_make_shared V (cf : cfg V) al (v : V) ks : exact_errors (SpModel.make_shared_a cf al v ks).
Proof. apply honest_exact. apply HonestSp.sh_make_shared_a. Qed.
Print Assumptions C58_make_shared.

(** All other operations of the pointers. *)
Theorem C58_pointers V (cf : cfg V) op vars :
  (forall v ks, op <> SpHistSpec.SoMake v ks) -> no_errors (SpHistSpec.exec_spop cf op vars).
Proof.
  intros Hop. assert (silent (SpHistSpec.exec_spop cf op vars)) as Hs; [|by intros w a w' (? & ? & _)%Hs].
  destruct op; [by destruct (Hop v ks)|..]; cbn [SpHistSpec.exec_spop]; unfold SpHistSpec.with_loc, SpHistSpec.declare; sh.
Qed.
Print Assumptions C58_pointers.

Theorem C58_algorithms V (cf : cfg V) torn pred first last d_first :
  exact_errors (nestl_copy cf torn first last d_first) /\ exact_errors (nestl_copy_if cf torn pred first last d_first).
Proof. split; apply honest_exact; sh. Qed.
Print Assumptions C58_algorithms.

Theorem C58_list_throwing V (cf : cfg V) o other x :
  exact_throws (hlst_copy_ctor cf other) thrown_of /\
  exact_throws (hlst_copy_assign cf o other) id /\
  exact_throws (hlst_push_back cf o x) id.
Proof.
  assert (forall A (m : M (lcell V) A) w a e w', honest never m -> with_local_err m w = Done (a, e) w' ->
    exists es, w_orc w = es ++ w_orc w' /\ (e = None <-> Forall answer_ok es)) as Hth.
  { intros A m w a e w' Hm Hr. destruct (honest_throws never m Hm _ _ _ _ Hr) as (_ & es & H1 & H2 & H3).
    exists es. split; [done|]. split; [done|]. intros Hf. specialize (H3 Hf). by destruct e. }
  assert (exact_throws (hlst_copy_ctor cf other) thrown_of) as Hcc.
  { intros w r w' Hr. unfold hlst_copy_ctor, bind in Hr.
    destruct (lst_new cf (c_dflt cf) w) as [n w1|] eqn:E1; [|done]. destruct (sh_lst_new V cf (c_dflt cf) _ _ _ E1) as [<- _].
    destruct (with_local_err _ w1) as [[[] e] w2|] eqn:E2; [|done]. destruct (Hth _ _ _ _ _ _ (sh_lst_copy never _ cf n other) E2) as (es & Ho & Hes).
    simpl in Hr. destruct e as [e|].
    - destruct (lst_destroy n w2) as [[] w3|] eqn:E3; [|done]. destruct (sh_lst_destroy V n _ _ _ E3) as [Ho3 _].
      injection Hr as <- <-. exists es. rewrite Ho3. done.
    - injection Hr as <- <-. by exists es. }
  split; [done|]. split.
  - intros w r w' Hr. unfold hlst_copy_assign, bind in Hr. destruct (hlst_copy_ctor cf other w) as [t w1|] eqn:E1; [|done].
    destruct (Hcc _ _ _ E1) as (es & Ho & Hes). destruct t as [tmp|e].
    + destruct (lst_swap cf o tmp w1) as [[] w2|] eqn:E2; [|done]. destruct (sh_lst_swap V cf o tmp _ _ _ E2) as [Ho2 _].
      destruct (lst_destroy tmp w2) as [[] w3|] eqn:E3; [|done]. destruct (sh_lst_destroy V tmp _ _ _ E3) as [Ho3 _].
      injection Hr as <- <-. exists es. rewrite Ho3, Ho2. done.
    + injection Hr as <- <-. by exists es.
  - intros w r w' Hr. unfold hlst_push_back, bind in Hr. destruct (with_local_err _ w) as [[[] e] w1|] eqn:E1; [|done].
    injection Hr as <- <-. eapply Hth; [|exact E1]. sh.
Qed.
Print Assumptions C58_list_throwing.

(** the second allocation fails; all succeed; and the throwing flavour *)
Example C58_example :
  let sets := [RbModel.TSet 0 1] in
  runs (RbHistSpec.exec_sop PropSet.tcD PropSet.nat_lt (RbHistSpec.SoInsertVals 0 [50; 60; 70]) sets) (PropSet.tw1 [EvOk 50; EvOk 1; EvFail 0; EvOk 1]) (fun _ w' =>
    w_err w' = Some EBadAlloc /\ w_orc w' = [EvOk 1]) /\
  runs (RbHistSpec.exec_sop PropSet.tcD PropSet.nat_lt (RbHistSpec.SoInsertVals 0 [50; 60; 70]) sets) (PropSet.tw1 [EvOk 50; EvOk 1; EvOk 51]) (fun _ w' =>
    w_err w' = None /\ w_orc w' = []).
Proof. cbv zeta. split; compute_run. Qed.

(** ** C59 *)

Theorem C59_vector V (cf : cfg V) op v : exact_errors_sized (exec_op cf op v).
Proof. apply honest_sized. sh. Qed.
Print Assumptions C59_vector.

Theorem C59_vector_copy V (cf : cfg V) v other first last :
  exact_errors_sized (vec_copy cf v other) /\ exact_errors_sized (vec_assign_ptrs cf v first last).
Proof. split; apply honest_sized; sh. Qed.
Print Assumptions C59_vector_copy.

Theorem C59_vector_throwing V (cf : cfg V) v other x :
  exact_throws_sized (hvec_copy_ctor cf other) thrown_of /\
  exact_throws_sized (hvec_copy_assign cf v other) snd /\
  exact_throws_sized (hvec_push_back cf v x) snd.
Proof.
  assert (forall A (m : M (vblock V) A) w a e w', honest too_big m -> with_local_err m w = Done (a, e) w' ->
    exists es, w_orc w = es ++ w_orc w' /\ (e = None -> Forall answer_ok es) /\
      (Forall answer_ok es -> e = None \/ e = Some ELength \/ e = Some EBadAlloc)) as Hth.
  { intros A m w a e w' Hm Hr. destruct (honest_throws too_big m Hm _ _ _ _ Hr) as (_ & es & H1 & H2 & H3).
    exists es. split; [done|]. split; [done|]. intros Hf. specialize (H3 Hf). destruct e as [e|]; [|by left]. destruct H3 as [->| ->]; auto. }
  assert (exact_throws_sized (hvec_copy_ctor cf other) thrown_of) as Hcc.
  { intros w r w' Hr. unfold hvec_copy_ctor, bind in Hr.
    destruct (with_local_err _ w) as [[n e] w2|] eqn:E2; [|done].
    destruct (Hth _ _ _ _ _ _ (sh_vec_copy _ cf _ other) E2) as (es & Ho & Hes). destruct e as [e|].
    - destruct (vec_destroy n w2) as [[] w3|] eqn:E3; [|done]. destruct (sh_vec_destroy V n _ _ _ E3) as [Ho3 _].
      injection Hr as <- <-. exists es. rewrite Ho3. done.
    - injection Hr as <- <-. by exists es. }
  split; [done|]. split.
  - intros w r w' Hr. unfold hvec_copy_assign, bind in Hr. destruct (hvec_copy_ctor cf other w) as [t w1|] eqn:E1; [|done].
    destruct (Hcc _ _ _ E1) as (es & Ho & Hes). destruct t as [tmp|e].
    + destruct (vec_swap tmp v) as [t1 v1]. destruct (vec_destroy t1 w1) as [[] w3|] eqn:E3; [|done].
      destruct (sh_vec_destroy V t1 _ _ _ E3) as [Ho3 _]. injection Hr as <- <-. exists es. rewrite Ho3. done.
    + injection Hr as <- <-. by exists es.
  - intros w [v' e] w' Hr. eapply Hth; [|exact Hr]. sh.
Qed.
Print Assumptions C59_vector_throwing.

Example C59_example :
  let v := vec_new 0 in
  let cf := Cfg true 8 (2^62) 0 Direct 0 in
  let w orc : world (vblock nat) := World ∅ orc None 0 0 in
  runs (exec_op cf (OpAssign 3 7) v) (w [EvOk 1; EvOk 1; EvFail 4; EvOk 1]) (fun _ w' => w_err w' = Some (EElem 4) /\ w_orc w' = [EvOk 1]) /\
  runs (exec_op cf (OpAssign 3 7) v) (w [EvOk 1; EvOk 1; EvOk 1; EvOk 1; EvOk 1]) (fun _ w' => w_err w' = None /\ w_orc w' = [EvOk 1]).
Proof. cbv zeta. split; compute_run. Qed.
