(** * Reasoning about machine programs *)
From Verif Require Export Base.

(** [runs m w Q]: started in [w], [m] terminates without any fault and its
    result and final world satisfy [Q]. *)
Definition runs {C A} (m : M C A) (w : world C) (Q : A -> world C -> Prop) : Prop :=
  exists a w', m w = Done a w' /\ Q a w'.

(** The heap of [w] consists of the fragment [hv] and the rest [hf]. *)
Definition heap_is {C} (w : world C) (hv hf : gmap addr C) : Prop :=
  w_heap w = hv ∪ hf /\ hv ##ₘ hf.

Section runs.
  Context {C : Type}.
  Implicit Types w : world C.

  Lemma runs_ret {A} (a : A) w (Q : A -> world C -> Prop) : Q a w -> runs (ret a) w Q.
  Proof. intros. exists a, w. done. Qed.

  Lemma runs_bind {A B} (m : M C A) (k : A -> M C B) w Q :
    runs m w (fun a w' => runs (k a) w' Q) -> runs (bind m k) w Q.
  Proof.
    intros (a & w' & Hm & b & w'' & Hk & HQ).
    exists b, w''. split; [|done]. unfold bind. by rewrite Hm.
  Qed.

  Lemma runs_bind_inv {A B} (m : M C A) (k : A -> M C B) w Q :
    runs (bind m k) w Q -> runs m w (fun a w' => runs (k a) w' Q).
  Proof.
    intros (b & w'' & Hm & HQ). unfold bind in Hm.
    destruct (m w) as [a w'|f] eqn:E; [|done].
    exists a, w'. split; [done|]. exists b, w''. done.
  Qed.

  Lemma runs_mono {A} (m : M C A) w (P Q : A -> world C -> Prop) :
    runs m w P -> (forall a w', P a w' -> Q a w') -> runs m w Q.
  Proof. intros (a & w' & Hm & HP) HPQ. exists a, w'. eauto. Qed.

  Lemma runs_eq {A} (m : M C A) w a w' (Q : A -> world C -> Prop) :
    m w = Done a w' -> Q a w' -> runs m w Q.
  Proof. intros. exists a, w'. done. Qed.

  Lemma runs_done {A} (m : M C A) w a w' (Q : A -> world C -> Prop) :
    runs m w Q -> m w = Done a w' -> Q a w'.
  Proof. intros (a0 & w0 & H0 & HQ) H. rewrite H in H0. by simplify_eq. Qed.

  Lemma runs_get_heap w (Q : _ -> world C -> Prop) : Q (w_heap w) w -> runs get_heap w Q.
  Proof. intros. by eapply runs_eq. Qed.
  Lemma runs_put_heap h w (Q : _ -> world C -> Prop) : Q tt (set_heap h w) -> runs (put_heap h) w Q.
  Proof. intros. by eapply runs_eq. Qed.
  Lemma runs_has_err w (Q : _ -> world C -> Prop) :
    Q (match w_err w with Some _ => true | None => false end) w -> runs has_err w Q.
  Proof. intros. by eapply runs_eq. Qed.
  Lemma runs_get_err w (Q : _ -> world C -> Prop) : Q (w_err w) w -> runs get_err w Q.
  Proof. intros. by eapply runs_eq. Qed.
  Lemma runs_put_err e w (Q : _ -> world C -> Prop) : Q tt (set_err e w) -> runs (put_err e) w Q.
  Proof. intros. by eapply runs_eq. Qed.

  Lemma runs_load a c w (Q : _ -> world C -> Prop) :
    w_heap w !! a = Some c -> Q c w -> runs (load a) w Q.
  Proof.
    intros Ha HQ. exists c, w. split; [|done].
    unfold load, bind, get_heap. by rewrite Ha.
  Qed.

  Lemma runs_store a c c0 w (Q : _ -> world C -> Prop) :
    w_heap w !! a = Some c0 -> Q tt (set_heap (<[a:=c]> (w_heap w)) w) -> runs (store a c) w Q.
  Proof.
    intros Ha HQ. exists tt, (set_heap (<[a:=c]> (w_heap w)) w). split; [|done].
    unfold store, bind, get_heap. by rewrite Ha.
  Qed.

  Lemma runs_free_cell a c0 w (Q : _ -> world C -> Prop) :
    w_heap w !! a = Some c0 -> Q tt (set_heap (delete a (w_heap w)) w) -> runs (free_cell a) w Q.
  Proof.
    intros Ha HQ. exists tt, (set_heap (delete a (w_heap w)) w). split; [|done].
    unfold free_cell, bind, get_heap. by rewrite Ha.
  Qed.

  Lemma pick_fresh (h : gmap addr C) hint : h !! pick h hint = None.
  Proof.
    unfold pick. destruct (h !! hint) eqn:E; [|done].
    apply not_elem_of_dom. apply is_fresh.
  Qed.

  (** allocation: success at a fresh address, or bad_alloc *)
  Lemma runs_alloc_cell c w (Q : _ -> world C -> Prop) :
    (forall a o, w_heap w !! a = None ->
       Q (Some a) (World (<[a:=c]> (w_heap w)) o (w_err w) (S (w_allocs w)) (w_ctors w))) ->
    (forall o, Q None (World (w_heap w) o (Some EBadAlloc) (S (w_allocs w)) (w_ctors w))) ->
    runs (alloc_cell c) w Q.
  Proof.
    intros Hok Hfail.
    destruct w as [h o e na nc]; simpl in *.
    destruct o as [|[code|hint] o].
    - eexists _, _. split; [cbn; reflexivity|]. simpl. apply Hok. apply pick_fresh.
    - eexists _, _. split; [cbn; reflexivity|]. simpl. apply Hfail.
    - eexists _, _. split; [cbn; reflexivity|]. simpl. apply Hok. apply pick_fresh.
  Qed.

  Lemma runs_new_local c w (Q : _ -> world C -> Prop) :
    (forall a, w_heap w !! a = None -> Q a (set_heap (<[a:=c]> (w_heap w)) w)) ->
    runs (new_local c) w Q.
  Proof.
    intros HQ. eexists _, _. split; [cbn; reflexivity|].
    apply HQ. apply not_elem_of_dom. apply is_fresh.
  Qed.

  Lemma runs_assert {V} (cf : cfg V) b w (Q : _ -> world C -> Prop) :
    b = true -> Q tt w -> runs (assert_ cf b) w Q.
  Proof.
    intros -> HQ. unfold assert_. rewrite andb_false_r. by apply runs_ret.
  Qed.

  Lemma runs_next_event w (Q : _ -> world C -> Prop) :
    (forall ev o, Q ev (World (w_heap w) o (w_err w) (w_allocs w) (w_ctors w))) ->
    runs next_event w Q.
  Proof.
    intros HQ. destruct w as [h o e na nc]. destruct o as [|ev o].
    - eexists _, _. split; [cbn; reflexivity|]. apply HQ.
    - eexists _, _. split; [cbn; reflexivity|]. apply HQ.
  Qed.

  Lemma runs_tick_ctor w (Q : _ -> world C -> Prop) :
    Q tt (World (w_heap w) (w_orc w) (w_err w) (w_allocs w) (S (w_ctors w))) -> runs tick_ctor w Q.
  Proof. intros. by eapply runs_eq. Qed.
End runs.

(** Construction of an element, given the three heaps involved: [h] with raw
    storage, [hl v] with an object of value [v] alive in it. *)
Lemma runs_construct {V C} (cf : cfg V) (pl ov : V -> M C unit) (un : M C unit) (rd : M C V) v (h : gmap addr C) (hl : V -> gmap addr C)
    (w : world C) (Q : unit -> world C -> Prop) :
  w_err w = None -> w_heap w = h ->
  (forall x w1 (P : unit -> world C -> Prop), w_heap w1 = h -> P tt (set_heap (hl x) w1) -> runs (pl x) w1 P) ->
  (forall x y w1 (P : unit -> world C -> Prop), w_heap w1 = hl y -> P tt (set_heap (hl x) w1) -> runs (ov x) w1 P) ->
  (forall y w1 (P : unit -> world C -> Prop), w_heap w1 = hl y -> P tt (set_heap h w1) -> runs un w1 P) ->
  (forall w1 (P : V -> world C -> Prop), w_heap w1 = h \/ (exists y, w_heap w1 = hl y) -> P v w1 -> runs rd w1 P) ->
  (forall orc, Q tt (World (hl v) orc None (w_allocs w) (S (w_ctors w)))) ->
  (forall orc code, c_kind cf <> Nothrow ->
     Q tt (World h orc (Some (EElem code)) (w_allocs w) (S (w_ctors w)))) ->
  runs (construct cf pl ov un rd) w Q.
Proof.
  intros He Hh Hpl Hov Hun Hrd Hok Hfail. unfold construct. subst h.
  destruct (c_kind cf) eqn:Hk.
  - apply runs_bind, runs_tick_ctor. apply runs_bind, Hrd; [by left|]. apply Hpl; [done|]. simpl. rewrite He. apply Hok.
  - apply runs_bind, runs_tick_ctor. apply runs_bind, Hrd; [by left|]. apply runs_bind, runs_next_event. intros ev orc; simpl.
    destruct ev.
    + apply runs_put_err. by apply Hfail.
    + apply Hpl; [done|]. simpl. rewrite He. apply Hok.
  - apply runs_bind, runs_tick_ctor. apply runs_bind, runs_next_event. intros ev orc; simpl.
    apply runs_bind. destruct ev.
    + apply runs_put_err. apply runs_bind, runs_has_err; simpl. apply runs_ret. by apply Hfail.
    + apply Hpl; [done|]. simpl. rewrite He. apply runs_bind, runs_has_err; simpl.
      apply runs_bind, Hrd; [right; by eexists|]. apply runs_bind, runs_next_event. intros ev2 orc2; simpl. apply runs_bind. destruct ev2.
      * apply runs_put_err. apply runs_bind, runs_has_err; simpl.
        eapply Hun; simpl; [done|]. unfold set_heap; simpl. by apply Hfail.
      * eapply Hov; simpl; [done|]. apply runs_bind, runs_has_err; simpl. apply runs_ret. apply Hok.
Qed.

(** ** Concrete runs, by computation *)

#[global] Instance error_eq_dec : EqDecision error.
Proof. solve_decision. Defined.
#[global] Instance fault_eq_dec : EqDecision fault.
Proof. solve_decision. Defined.

Definition faults {C A} (m : M C A) (w : world C) (f : fault) : Prop := m w = Fault f.
#[global] Instance faults_dec {C A} (m : M C A) w f : Decision (faults m w f).
Proof.
  unfold faults. destruct (m w) as [a w'|f']; [right; congruence|].
  destruct (decide (f' = f)) as [->|]; [left|right]; congruence.
Defined.

Lemma runs_dec {C A} (m : M C A) w (Q : A -> world C -> Prop) (dec : forall a w', Decision (Q a w')) :
  match m w with Done a w' => @bool_decide _ (dec a w') | Fault _ => false end = true -> runs m w Q.
Proof.
  intros Hb. unfold runs. destruct (m w) as [a w'|] eqn:E; [|done].
  exists a, w'. split; [done|]. by apply bool_decide_eq_true in Hb.
Qed.

Ltac compute_run :=
  lazymatch goal with
  | |- runs ?m ?w ?Q =>
      let d := constr:(ltac:(intros a w'; cbv beta; apply _) : forall a w', Decision (Q a w')) in
      apply (runs_dec m w Q d); vm_compute; reflexivity
  end.

(** Decompose the leading [bind]. *)
Ltac rbind := apply runs_bind.
