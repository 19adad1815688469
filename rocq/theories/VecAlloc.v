(** * Which allocator a vector has after an operation *)
From Verif Require Import VecHistSpec VecProofs.

Section alloc.
  Context {V : Type} (cf : cfg V).
  Notation W := (world (vblock V)).
  Notation MV := (M (vblock V)).

  (** every result of a call satisfies [P] *)
  Definition post {A} (m : MV A) (P : A -> Prop) : Prop := forall w a w', m w = Done a w' -> P a.

  Lemma post_ret {A} (a : A) (P : A -> Prop) : P a -> post (ret a) P.
  Proof. intros Hp w a' w' H. by injection H as -> _. Qed.
  Lemma post_any {A} (m : MV A) : post m (fun _ => True).
  Proof. done. Qed.
  Lemma post_bind {A B} (m : MV A) (k : A -> MV B) (P : A -> Prop) (Q : B -> Prop) :
    post m P -> (forall a, P a -> post (k a) Q) -> post (bind m k) Q.
  Proof.
    intros Hm Hk w b w' H. unfold bind in H. destruct (m w) as [a w1|f] eqn:E; [|done]. exact (Hk a (Hm _ _ _ E) _ _ _ H).
  Qed.
  Lemma post_fail {A} f (P : A -> Prop) : post (fail f) P.
  Proof. intros w a w' H. done. Qed.

  Ltac pany := let y := fresh "y" in eapply post_bind; [apply post_any|intros y _].
  Ltac pd := match goal with |- post (if ?b then _ else _) _ => destruct b end.
  Ltac pstep := first [apply post_fail | pd | (apply post_ret; simpl; try done; congruence) | pany].

  Notation same v := (fun v' : vec_obj => m_allocator v' = m_allocator v).
  Notation same2 v := (fun r : ptr * vec_obj => m_allocator r.2 = m_allocator v).

  Lemma post_do_reserve v n : post (do_reserve cf v n) (same v).
  Proof. unfold do_reserve. repeat pstep. Qed.
  Lemma post_reserve v n : post (vec_reserve cf v n) (same v).
  Proof. unfold vec_reserve. pany. pd; [by apply post_ret|]. pd; [repeat pstep|apply post_do_reserve]. Qed.
  Lemma post_shrink v : post (vec_shrink_to_fit cf v) (same v).
  Proof. unfold vec_shrink_to_fit. do 2 pany. pd; [apply post_do_reserve|by apply post_ret]. Qed.
  Lemma post_grow v n : post (grow cf v n) (same v).
  Proof. unfold grow. do 2 pany. apply post_reserve. Qed.
  Lemma post_insert_value v p a : post (insert_value cf v p a) (same2 v).
  Proof.
    unfold insert_value. do 5 pany.
    eapply (post_bind _ _ (fun r : vec_obj * bool => m_allocator r.1 = m_allocator v)).
    { pd; [|by apply post_ret]. eapply post_bind; [apply post_grow|]. intros v1 H1. pany. by apply post_ret. }
    intros [v1 e] H1. simpl in H1. pd; [by apply post_ret|]. do 4 pany.
    match goal with |- post (bind ?m _) _ => eapply (post_bind m _ (fun _ => True)); [done|intros ok _] end.
    pd; [by apply post_ret|]. repeat pstep.
  Qed.
  Lemma post_push_back v a : post (vec_push_back cf v a) (same v).
  Proof. unfold vec_push_back, vec_insert. eapply post_bind; [apply post_insert_value|]. intros r Hr. by apply post_ret. Qed.
  Lemma post_insert_range v p args : post (vec_insert_range cf v p args) (same v).
  Proof.
    unfold vec_insert_range. do 3 pany. eapply (post_bind _ _ (same2 v)); [|intros r Hr; by apply post_ret].
    generalize Null. match goal with |- forall q, post (insert_range_loop _ _ ?o _ _) _ => generalize o end.
    assert (Hv : m_allocator v = m_allocator v) by done. revert Hv. generalize v at 1 3 as v1.
    induction args as [|a args IH]; intros v1 Hv o q; simpl; [by apply post_ret|]. pany.
    eapply post_bind; [apply post_insert_value|]. intros r Hr. pany. pd; [apply post_ret; simpl; congruence|].
    apply IH. congruence.
  Qed.
  Lemma post_resize v n a : post (vec_resize cf v n a) (same v).
  Proof.
    unfold vec_resize. pany. pd; [repeat pstep|]. eapply post_bind; [apply post_grow|]. intros v1 H1. pany.
    pd; [by apply post_ret|]. generalize (S n) as fuel. intros fuel. revert v1 H1. induction fuel as [|fuel IH]; intros v1 H1; [apply post_fail|].
    simpl. pany. pd; [|by apply post_ret]. do 2 pany. pd; [by apply post_ret|]. pany. by apply IH.
  Qed.
  Lemma post_clear v : post (vec_clear v) (same v).
  Proof. unfold vec_clear. repeat pstep. Qed.

  (** assignment: the contents end up in a vector with a default constructed
      allocator *)
  Notation dflt := (fun v' : vec_obj => m_allocator v' = c_dflt cf).
  Lemma post_assign_n_loop v n a : dflt v -> post (assign_n_loop cf v n a) dflt.
  Proof.
    revert v. induction n as [|n IH]; intros v Hv; simpl; [by apply post_ret|].
    eapply post_bind; [apply post_push_back|]. intros v1 H1. pany. pd; [apply post_ret; congruence|]. apply IH. congruence.
  Qed.
  Lemma post_assign_n v n a : post (vec_assign_n cf v n a) dflt.
  Proof.
    unfold vec_assign_n. simpl. pany. eapply post_bind; [apply post_grow|]. intros v1 H1. simpl in H1. pany.
    eapply (post_bind _ _ dflt); [|intros v2 H2; pany; by apply post_ret].
    pd; [by apply post_ret|]. by apply post_assign_n_loop.
  Qed.
  Lemma post_assign_input v args : post (vec_assign_input cf v args) dflt.
  Proof.
    unfold vec_assign_input. simpl. pany.
    eapply (post_bind _ _ dflt); [|intros v2 H2; pany; by apply post_ret].
    match goal with |- post (assign_input_loop _ ?u _) _ => assert (Hv : dflt u) by done; revert Hv; generalize u end.
    induction args as [|x args IH]; intros v1 Hv; simpl; [by apply post_ret|].
    eapply post_bind; [apply post_push_back|]. intros v2 H2. pany. pd; [apply post_ret; congruence|]. apply IH. congruence.
  Qed.
  Lemma post_assign_ptr_loop fuel v p q : dflt v -> post (assign_ptr_loop cf fuel v p q) dflt.
  Proof.
    revert v p. induction fuel as [|fuel IH]; intros v1 p H1; simpl; [apply post_fail|]. pd; [by apply post_ret|].
    eapply post_bind; [apply post_push_back|]. intros v2 H2. pany. pd; [apply post_ret; congruence|]. pany. apply IH. congruence.
  Qed.
  Lemma post_assign_ptrs v p q : post (vec_assign_ptrs cf v p q) dflt.
  Proof.
    unfold vec_assign_ptrs. cbn [vec_swap swap_data vec_new m_allocator]. do 2 pany.
    eapply post_bind; [apply post_grow|]. intros v1 H1. simpl in H1. pany.
    eapply (post_bind _ _ dflt); [|intros v2 H2; pany; by apply post_ret].
    pd; [by apply post_ret|]. pany. by apply post_assign_ptr_loop.
  Qed.

  (** the allocator after a call *)
  Definition op_allocator (op : vop V) (al : alloc_id) : alloc_id :=
    match op with OpAssign _ _ | OpAssignRange _ | OpSelfCopy => c_dflt cf | _ => al end.

  Lemma post_exec_op op v : post (exec_op cf op v) (fun v' => m_allocator v' = op_allocator op (m_allocator v)).
  Proof.
    destruct op; simpl.
    - apply post_push_back.
    - unfold vec_emplace_back. eapply post_bind; [apply post_insert_value|]. intros r Hr. by apply post_ret.
    - unfold vec_insert. eapply post_bind; [apply post_insert_value|]. intros r Hr. by apply post_ret.
    - pany. unfold vec_insert. eapply post_bind; [apply post_insert_value|]. intros r Hr. by apply post_ret.
    - pany. apply post_insert_range.
    - apply post_reserve.
    - apply post_shrink.
    - apply post_resize.
    - apply post_assign_n.
    - apply post_assign_input.
    - apply post_assign_ptrs.
    - apply post_clear.
  Qed.

  Lemma post_exec_ops ops v :
    post (exec_ops cf ops v) (fun r => m_allocator r.1 = foldl (fun al op => op_allocator op al) (m_allocator v) ops).
  Proof.
    revert v. induction ops as [|op ops IH]; intros v; simpl; [by apply post_ret|]. pany.
    eapply post_bind; [apply post_exec_op|]. intros v1 H1. pany. eapply post_bind; [apply IH|]. intros r Hr.
    apply post_ret. simpl. by rewrite Hr, H1.
  Qed.
End alloc.
