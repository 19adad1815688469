(** * Property C79: handles to one object in several threads

    The full statement - threads that work on their own handles, some of which
    refer to the same objects, never destroy an object early, late or twice,
    whatever the schedule - is false: the counters are neither atomic nor
    protected by a lock. *)
From Verif Require Import SpThr.

(** ** What holds *)

(** Under every schedule that never lets two threads be inside operations on
    the same control block, there is no undefined behaviour, and everything is
    right whenever nobody is inside an operation. *)
Theorem C79_race_free_partial V (s : sys V) sched :
  all_idle s -> all_right s -> race_free sched s ->
  exists s', run sched s = inl s' /\ all_right s'.
Proof.
  intros Hi Hr Hf. destruct (run_ok sched s) as (s' & E & Hinv); [by apply idle_inv|done|].
  exists s'. split; [done|]. by apply inv_right.
Qed.
Print Assumptions C79_race_free_partial.

Lemma idle_no_race V (s : sys V) : all_idle s -> ~ race s.
Proof.
  intros Hi (i & j & t & u & c & _ & Ht & _ & Hb & _). unfold busy in Hb. rewrite Hi in Hb; [done|].
  by eapply elem_of_list_lookup_2.
Qed.

(** With a lock around every statement. *)
Lemma locked_race_free V sched : forall s : sys V, ~ race s -> locked sched s -> race_free sched s.
Proof.
  induction sched as [|i sched IH]; intros s Hr Hl; simpl; (split; [done|]); [done|].
  destruct Hl as [Hl Hn]. destruct (sstep i s) as [s'|f] eqn:E; [|done]. apply IH; [|done].
  intros (j & k & t & u & c & Hjk & Ht & Hu & Hb & Hb').
  assert (forall j t, j <> i -> sy_thr s' !! j = Some t -> busy t = None) as Hothers.
  { intros j' t' Hne Hj'. assert (sy_thr s !! j' = Some t') as Hj.
    { unfold sstep in E. destruct (sy_thr s !! i); [|by simplify_eq]. destruct (tstep _ _) as [[m t1]|]; [|done].
      injection E as <-. simpl in Hj'. by rewrite list_lookup_insert_ne in Hj'. }
    unfold busy. by rewrite (Hl j' t' Hne Hj). }
  destruct (decide (j = i)) as [->|Hne].
  - rewrite (Hothers k u) in Hb' by done. done.
  - rewrite (Hothers j t) in Hb by done. done.
Qed.
Theorem C79_locked_partial V (s : sys V) sched :
  all_idle s -> all_right s -> locked sched s ->
  exists s', run sched s = inl s' /\ all_right s'.
Proof. intros Hi Hr Hl. apply C79_race_free_partial; [done..|]. apply locked_race_free; [by apply idle_no_race|done]. Qed.
Print Assumptions C79_locked_partial.

(** With objects that are not shared between threads: every schedule. *)
Definition touches (t : thr) (c : addr) : Prop := busy t = Some c \/ exists k, (k, c) ∈ th_handles t.
Definition apart {V} (s : sys V) : Prop := forall i j t u c,
  sy_thr s !! i = Some t -> sy_thr s !! j = Some u -> touches t c -> touches u c -> i = j.
Lemma apart_no_race V (s : sys V) : apart s -> ~ race s.
Proof. intros Ha (i & j & t & u & c & Hne & Ht & Hu & Hb & Hb'). apply Hne. eapply (Ha i j t u c); try done; by left. Qed.

Lemma elem_delete {A} (x : A) (i : nat) (l : list A) : x ∈ delete i l -> x ∈ l.
Proof. intros Hx. eapply elem_of_submseteq; [exact Hx|]. apply sublist_submseteq, sublist_delete. Qed.
Lemma tstep_touches V (m : gmap addr (cblock V)) t m' t' c : tstep m t = inl (m', t') -> touches t' c -> touches t c.
Proof.
  destruct t as [hs q p]. unfold touches, busy. intros E Ht.
  assert (forall i h, hs !! i = Some h -> h ∈ hs) as Hin by (intros; by eapply elem_of_list_lookup_2).
  destruct q; simpl in E.
  { destruct p as [|st p]; [by simplify_eq|]. destruct st as [i|i|i|i|i]; simpl in E.
    all: destruct (hs !! i) as [[k c']|] eqn:Hi; [|by simplify_eq/=; destruct Ht as [|]; [done|by right]].
    all: unfold with_block in E; destruct k; simplify_eq/=; try (destruct Ht as [|]; [done|by right]).
    all: destruct (m !! c') as [b|]; [|done].
    all: repeat case_decide; repeat case_match; simplify_eq/=.
    all: destruct Ht as [Ht|[k Ht]]; simplify_eq/=; try done; right; eexists; first [by eapply Hin|by eapply elem_delete|done]. }
  all: unfold with_block, free_block in E; destruct (m !! c0) as [b|]; [|done].
  all: repeat case_decide; repeat case_match; simplify_eq/=.
  all: destruct Ht as [Ht|[k Ht]]; simplify_eq/=; try done; try (by left); try (by right; eauto).
  all: apply elem_of_app in Ht as [Ht|Ht%elem_of_list_singleton]; simplify_eq; [by right; eauto|by left].
Qed.
Lemma apart_race_free V sched : forall s : sys V, apart s -> race_free sched s.
Proof.
  induction sched as [|i sched IH]; intros s Ha; simpl; (split; [by apply apart_no_race|]); [done|].
  destruct (sstep i s) as [s'|f] eqn:E; [|done]. apply IH. unfold sstep in E.
  destruct (sy_thr s !! i) as [t|] eqn:Hi; [|by simplify_eq].
  destruct (tstep _ _) as [[m t']|] eqn:Et; [|done]. injection E as <-.
  assert (forall j u c, <[i := t']> (sy_thr s) !! j = Some u -> touches u c -> exists u0, sy_thr s !! j = Some u0 /\ touches u0 c) as Hback.
  { intros j u c Hj Hu. destruct (decide (j = i)) as [->|Hne].
    - rewrite list_lookup_insert in Hj by (by eapply lookup_lt_Some). injection Hj as <-. exists t. split; [done|]. by eapply tstep_touches.
    - rewrite list_lookup_insert_ne in Hj by done. eauto. }
  intros j1 j2 u1 u2 c H1 H2 T1 T2. simpl in *.
  apply (Hback _ _ c) in H1 as (v1 & ? & ?); [|done]. apply (Hback _ _ c) in H2 as (v2 & ? & ?); [|done]. by eapply Ha.
Qed.
Theorem C79_separate_partial V (s : sys V) sched :
  all_idle s -> all_right s -> separate s ->
  exists s', run sched s = inl s' /\ all_right s'.
Proof.
  intros Hi Hr Hs. apply C79_race_free_partial; [done..|]. apply apart_race_free.
  assert (forall j t c, sy_thr s !! j = Some t -> touches t c -> exists k, (k, c) ∈ th_handles t) as Ht.
  { intros j t c Hj [Hb|?]; [|done]. unfold busy in Hb. rewrite Hi in Hb; [done|by eapply elem_of_list_lookup_2]. }
  intros j1 j2 u1 u2 c H1 H2 T1 T2. apply (Ht j1) in T1 as [k1 ?]; [|done]. apply (Ht j2) in T2 as [k2 ?]; [|done]. by eapply Hs.
Qed.
Print Assumptions C79_separate_partial.

(** [all_right] at the end of the program: if no handles are left, nothing is. *)
Theorem C79_end V (s : sys V) :
  all_idle s -> all_right s -> handles s = [] -> sy_mem s = ∅.
Proof.
  intros Hi Hr Hh. apply map_empty. intros c.
  assert (forall k, owners k c s = 0) as Ho by (intros k; unfold owners; by rewrite Hh).
  assert (block_right s c) as Hb.
  { apply Hr. intros t Ht. unfold busy. by rewrite Hi. }
  unfold block_right in Hb. rewrite !Ho in Hb. destruct (sy_mem s !! c); [lia|done].
Qed.
Print Assumptions C79_end.

(** ** One thread does what the sequential model says *)

Fixpoint steps {V} (n : nat) (m : gmap addr (cblock V)) (t : thr) : tres (V := V) :=
  match n with
  | 0 => inl (m, t)
  | S n => match tstep m t with inl (m', t') => steps n m' t' | inr f => inr f end
  end.

Lemma steps_more {V} a n (m : gmap addr (cblock V)) t m1 t1 r :
  steps a m t = inl (m1, t1) -> steps n m1 t1 = r -> steps (a + n) m t = r.
Proof.
  revert m t. induction a as [|a IH]; intros m t; simpl; [by intros [= -> ->]|].
  destruct (tstep m t) as [[m2 t2]|]; [|done]. apply IH.
Qed.

(** A statement that runs without interruption has the effect of the function
    of SpModel.v it stands for. *)
Theorem C79_alone V (cf : cfg V) (m : gmap addr (cblock V)) hs p i k c b orc n1 n2 :
  let w := World (SBlock <$> m) orc None n1 n2 in
  hs !! i = Some (k, c) -> m !! c = Some b -> (forall x, cb_val b = Some x -> x.2 = []) ->
  (k = KShared -> forall w', add_ref cf c w = Done tt w' ->
     exists m', steps 2 m (Thr hs Idle (TCopy i :: p)) = inl (m', Thr (hs ++ [(KShared, c)]) Idle p) /\ w_heap w' = SBlock <$> m') /\
  (forall w', weak_add_ref cf c w = Done tt w' ->
     exists m', steps 2 m (Thr hs Idle ((if k then TWeak i else TCopy i) :: p)) = inl (m', Thr (hs ++ [(KWeak, c)]) Idle p) /\
       w_heap w' = SBlock <$> m') /\
  (k = KShared -> forall w', release_top cf c w = Done tt w' ->
     exists n m', steps n m (Thr hs Idle (TDrop i :: p)) = inl (m', Thr (delete i hs) Idle p) /\ w_heap w' = SBlock <$> m') /\
  (k = KWeak -> forall w', weak_release cf c w = Done tt w' ->
     exists n m', steps n m (Thr hs Idle (TDrop i :: p)) = inl (m', Thr (delete i hs) Idle p) /\ w_heap w' = SBlock <$> m').
Proof.
  intros w Hi Hc Hval.
  assert (forall n1 n2 orc (m : gmap addr (cblock V)) b, m !! c = Some b ->
    get_block c (World (SBlock <$> m) orc None n1 n2) = Done b (World (SBlock <$> m) orc None n1 n2)) as Hget.
  { intros ????? H. unfold get_block, load, bind. simpl. rewrite lookup_fmap, H. done. }
  assert (forall n1 n2 orc (m : gmap addr (cblock V)) b b', m !! c = Some b ->
    put_block c b' (World (SBlock <$> m) orc None n1 n2) = Done tt (World (SBlock <$> <[c := b']> m) orc None n1 n2)) as Hput.
  { intros ?????? H. unfold put_block, store, bind. simpl. rewrite lookup_fmap, H. simpl. unfold put_heap. simpl. by rewrite fmap_insert. }
  assert (forall n1 n2 orc (m : gmap addr (cblock V)) b w', m !! c = Some b ->
    destroy_self c (World (SBlock <$> m) orc None n1 n2) = Done tt w' -> cb_val b = None /\ w_heap w' = SBlock <$> delete c m) as Hdel.
  { intros k1 k2 orc1 m1 b1 w1 H. unfold destroy_self, bind. rewrite (Hget _ _ _ _ _ H). destruct (cb_val b1); [done|].
    unfold free_cell, bind. simpl. rewrite lookup_fmap, H. simpl. intros [= <-]. simpl. by rewrite fmap_delete. }
  assert (forall x (w w' : world (scell V)), assert_ cf x w = Done tt w' -> w' = w) as Hassert.
  { intros x w0 w1. unfold assert_. destruct x, (c_dbg cf); simpl; unfold fail, ret; congruence. }
  assert (forall (m : gmap addr (cblock V)) b k, m !! c = Some b -> with_block m c k = k b) as Hwb.
  { intros ??? H. unfold with_block. by rewrite H. }
  split_and!.
  - intros -> w' Hr. unfold add_ref, bind in Hr. unfold w in Hr. rewrite (Hget _ _ _ _ _ Hc) in Hr.
    destruct (assert_ _ _ _) as [[] w1|] eqn:Ea; [|done]. apply Hassert in Ea as ->. rewrite (Hput _ _ _ _ _ _ Hc) in Hr.
    injection Hr as <-. simpl. rewrite Hi. rewrite (Hwb _ _ _ Hc). simpl. rewrite (Hwb _ _ _ Hc). simpl. eexists; split; reflexivity.
  - intros w' Hr. unfold weak_add_ref, bind in Hr. unfold w in Hr. rewrite (Hget _ _ _ _ _ Hc) in Hr.
    destruct (assert_ _ _ _) as [[] w1|] eqn:Ea; [|done]. apply Hassert in Ea as ->. rewrite (Hput _ _ _ _ _ _ Hc) in Hr.
    injection Hr as <-. destruct k; simpl; rewrite Hi; rewrite (Hwb _ _ _ Hc); simpl; rewrite (Hwb _ _ _ Hc); simpl; (eexists; split; reflexivity).
  - intros -> w' Hr. unfold release_top, bind in Hr. unfold w in Hr. simpl in Hr. unfold bind at 1 in Hr.
    rewrite (Hget _ _ _ _ _ Hc) in Hr. unfold bind at 1 in Hr.
    destruct (assert_ _ _ _) as [[] w1|] eqn:Ea; [|done]. apply Hassert in Ea as ->. unfold bind at 1 in Hr.
    rewrite (Hput _ _ _ _ _ _ Hc) in Hr. set (b1 := CB _ (cb_use b - 1) _ _) in Hr.
    assert (<[c := b1]> m !! c = Some b1) as Hc1 by apply lookup_insert.
    assert (steps 2 m (Thr hs Idle (TDrop i :: p)) = inl (<[c := b1]> m, Thr (delete i hs) (RelStored c) p)) as H2.
    { simpl. rewrite Hi. rewrite (Hwb _ _ _ Hc). simpl. by rewrite (Hwb _ _ _ Hc). }
    destruct (decide (cb_use b - 1 = 0)%Z) as [H0|H0].
    + unfold bind at 1 2 in Hr. rewrite (Hget _ _ _ _ _ Hc1) in Hr. change (cb_val b1) with (cb_val b) in Hr.
      destruct (cb_val b) as [[x hs']|] eqn:Ev; [|done]. specialize (Hval _ eq_refl). simpl in Hval. subst hs'.
      unfold bind in Hr. rewrite (Hput _ _ _ _ _ _ Hc1) in Hr. rewrite insert_insert in Hr. unfold ret in Hr.
      set (b2 := CB _ _ _ None) in Hr. assert (<[c := b2]> m !! c = Some b2) as Hc2 by apply lookup_insert.
      rewrite (Hget _ _ _ _ _ Hc2) in Hr. change (cb_weak b2) with (cb_weak b) in Hr.
      destruct (decide (cb_weak b = 0)%Z) as [Hw0|Hw0].
      * apply (Hdel _ _ _ _ _ _ Hc2) in Hr as [_ ->]. exists 4, (delete c (<[c := b2]> m)). split; [|done].
        eapply (steps_more 2 2); [exact H2|]. simpl. rewrite (Hwb _ _ _ Hc1). simpl. rewrite decide_True by done.
        unfold b1 at 1. simpl. rewrite insert_insert. unfold end_value. simpl. fold b2. rewrite (Hwb _ _ _ Hc2). simpl. rewrite decide_True by done. done.
      * injection Hr as <-. exists 4, (<[c := b2]> m). split; [|done].
        eapply (steps_more 2 2); [exact H2|]. simpl. rewrite (Hwb _ _ _ Hc1). simpl. rewrite decide_True by done.
        unfold b1 at 1. simpl. rewrite insert_insert. unfold end_value. simpl. fold b2. rewrite (Hwb _ _ _ Hc2). simpl. rewrite decide_False by done. done.
    + injection Hr as <-. exists 3, (<[c := b1]> m). split; [|done]. eapply (steps_more 2 1); [exact H2|].
      simpl. rewrite (Hwb _ _ _ Hc1). simpl. by rewrite decide_False.
  - intros -> w' Hr. unfold weak_release, bind in Hr. unfold w in Hr. rewrite (Hget _ _ _ _ _ Hc) in Hr.
    destruct (assert_ _ _ _) as [[] w1|] eqn:Ea; [|done]. apply Hassert in Ea as ->. rewrite (Hput _ _ _ _ _ _ Hc) in Hr.
    set (b1 := CB _ _ (cb_weak b - 1) _) in Hr. assert (<[c := b1]> m !! c = Some b1) as Hc1 by apply lookup_insert.
    destruct (decide _) as [[H0 H1]|H01].
    + apply (Hdel _ _ _ _ _ _ Hc1) in Hr as [Hv ->]. exists 4, (delete c (<[c := b1]> m)). split; [|done].
      simpl. rewrite Hi. rewrite (Hwb _ _ _ Hc). simpl. rewrite (Hwb _ _ _ Hc). simpl. simpl. change (set_weak b (cb_weak b - 1)) with b1. rewrite (Hwb _ _ _ Hc1). simpl.
      rewrite decide_True by done. simpl. rewrite (Hwb _ _ _ Hc1). simpl. rewrite decide_True by done. unfold free_block. simpl. change (cb_val b) with (cb_val b1). by rewrite Hv.
    + injection Hr as <-. destruct (decide (cb_weak b - 1 = 0)%Z) as [Hw|Hw]; [exists 4, (<[c := b1]> m)|exists 3, (<[c := b1]> m)]; (split; [|done]).
      * simpl. rewrite Hi. rewrite (Hwb _ _ _ Hc). simpl. rewrite (Hwb _ _ _ Hc). simpl. simpl. change (set_weak b (cb_weak b - 1)) with b1. rewrite (Hwb _ _ _ Hc1). simpl.
        rewrite decide_True by done. simpl. rewrite (Hwb _ _ _ Hc1). simpl. rewrite decide_False; [done|]. naive_solver.
      * simpl. rewrite Hi. rewrite (Hwb _ _ _ Hc). simpl. rewrite (Hwb _ _ _ Hc). simpl. simpl. change (set_weak b (cb_weak b - 1)) with b1. rewrite (Hwb _ _ _ Hc1). simpl.
        by rewrite decide_False.
Qed.
Print Assumptions C79_alone.

(** ** What does not hold *)

(** An object with two owners, one in each of two threads. *)
Definition two_threads (p0 p1 : list tstmt) : sys nat :=
  Sys {[ 1%positive := CB 0 2 0 (Some (7, [])) ]}
      [Thr [(KShared, 1%positive)] Idle p0; Thr [(KShared, 1%positive)] Idle p1].
Lemma two_threads_right p0 p1 : all_idle (two_threads p0 p1) /\ all_right (two_threads p0 p1).
Proof.
  split; [intros t Ht; simpl in Ht; repeat (apply elem_of_cons in Ht as [->|Ht]; [done|]); by apply elem_of_nil in Ht|].
  intros c _. unfold block_right. simpl. destruct (decide (c = 1%positive)) as [->|Hne].
  - rewrite lookup_singleton. change (owners KShared 1 (two_threads p0 p1)) with 2. change (owners KWeak 1 (two_threads p0 p1)) with 0. simpl.
    split_and!; try done; [split; [lia|done]|lia].
  - rewrite lookup_singleton_ne by done. unfold owners, handles. simpl. rewrite !filter_cons, filter_nil.
    rewrite !decide_False by congruence. done.
Qed.

(** Both threads copy their handle; one of the two increments is lost, and the
    object is destroyed while a thread still owns and uses it. *)
Theorem C79_use_after_destroy_refuted : exists (s : sys nat) sched,
  all_idle s /\ all_right s /\ sy_thr s !! 0 = Some (Thr [(KShared, 1%positive)] Idle [TCopy 0; TDrop 1; TDrop 0]) /\
  sy_thr s !! 1 = Some (Thr [(KShared, 1%positive)] Idle [TCopy 0; TDrop 1; TUse 0]) /\ length (sy_thr s) = 2 /\
  run sched s = inr FFreed.
Proof.
  exists (two_threads [TCopy 0; TDrop 1; TDrop 0] [TCopy 0; TDrop 1; TUse 0]).
  exists [0; 1; 0; 1; 0; 0; 0; 0; 0; 0; 1; 1; 1; 1; 1]. destruct (two_threads_right [TCopy 0; TDrop 1; TDrop 0] [TCopy 0; TDrop 1; TUse 0]).
  split_and!; try done.
Qed.
Print Assumptions C79_use_after_destroy_refuted.

(** Atomic counters would not help: both threads drop their handle; each
    decrement happens without interruption, but both threads then read the
    counter again, find it 0 and destroy the object. *)
Theorem C79_double_destroy_refuted : exists (s : sys nat) sched,
  all_idle s /\ all_right s /\ sy_thr s !! 0 = Some (Thr [(KShared, 1%positive)] Idle [TDrop 0]) /\
  sy_thr s !! 1 = Some (Thr [(KShared, 1%positive)] Idle [TDrop 0]) /\ length (sy_thr s) = 2 /\
  (exists rest, sched = [0; 0] ++ [1; 1] ++ rest) /\ run sched s = inr FRaw.
Proof.
  exists (two_threads [TDrop 0] [TDrop 0]), [0; 0; 1; 1; 0; 1]. destruct (two_threads_right [TDrop 0] [TDrop 0]).
  split_and!; try done. by exists [0; 1].
Qed.
Print Assumptions C79_double_destroy_refuted.

(** Both threads drop their handle; one of the two decrements is lost, and the
    object stays for ever. *)
Theorem C79_leak_refuted : exists (s s' : sys nat) sched,
  all_idle s /\ all_right s /\ run sched s = inl s' /\ all_idle s' /\ handles s' = [] /\ sy_mem s' <> ∅.
Proof.
  exists (two_threads [TDrop 0] [TDrop 0]).
  eexists _, [0; 1; 0; 1; 0; 1]. destruct (two_threads_right [TDrop 0] [TDrop 0]).
  split_and!; [done|done|by vm_compute|..].
  - intros t Ht; simpl in Ht; repeat (apply elem_of_cons in Ht as [->|Ht]; [done|]); by apply elem_of_nil in Ht.
  - done.
  - done.
Qed.
Print Assumptions C79_leak_refuted.

(** A thread finds that its weak_ptr has not expired and calls lock(); in
    between the last owner goes, in one piece.  lock() then makes a shared_ptr
    to the destroyed object. *)
Theorem C79_lock_race_refuted : exists (s : sys nat) s1 s2,
  all_idle s /\ all_right s /\
  sy_thr s !! 0 = Some (Thr [(KWeak, 1%positive)] Idle [TLock 0; TUse 1]) /\
  sy_thr s !! 1 = Some (Thr [(KShared, 1%positive)] Idle [TDrop 0]) /\ length (sy_thr s) = 2 /\
  run [0] s = inl s1 /\ run (replicate 4 1) s1 = inl s2 /\ th_pc <$> sy_thr s2 !! 1 = Some Idle /\
  run [0; 0; 0] s2 = inr FRaw.
Proof.
  exists (Sys {[ 1%positive := CB 0 1 1 (Some (7, [])) ]}
      [Thr [(KWeak, 1%positive)] Idle [TLock 0; TUse 1]; Thr [(KShared, 1%positive)] Idle [TDrop 0]]).
  set (s := Sys _ _). eexists _, _. split_and!.
  - intros t Ht; simpl in Ht; repeat (apply elem_of_cons in Ht as [->|Ht]; [done|]); by apply elem_of_nil in Ht.
  - intros c _. unfold block_right. destruct (decide (c = 1%positive)) as [->|Hne].
    + change (owners KShared 1 s) with 1. change (owners KWeak 1 s) with 1. cbn -[lookup]. rewrite lookup_singleton.
      split_and!; try done; [split; [lia|done]|lia].
    + cbn -[lookup owners]. rewrite lookup_singleton_ne by done.
      unfold owners, handles. simpl. rewrite !filter_cons, filter_nil. rewrite !decide_False by congruence. done.
  - done.
  - done.
  - done.
  - by vm_compute.
  - by vm_compute.
  - done.
  - done.
Qed.
Print Assumptions C79_lock_race_refuted.

(** The same threads behave under a lock. *)
Example C79_example :
  let s := two_threads [TCopy 0; TWeak 0; TDrop 0; TLock 1; TDrop 0] [TCopy 0; TDrop 1; TUse 0; TDrop 0] in
  locked (replicate 20 0 ++ replicate 20 1) s /\
  (exists s', run (replicate 20 0 ++ replicate 20 1) s = inl s' /\ all_idle s' /\ length (handles s') = 2 /\
     cb_use <$> (sy_mem s' !! 1%positive) = Some 1%Z /\ cb_weak <$> (sy_mem s' !! 1%positive) = Some 1%Z).
Proof.
  split.
  - simpl. vm_compute. repeat (split; [intros [|[|j]] t Hne Ht; simplify_eq; done|]). done.
  - eexists. split; [by vm_compute|]. split_and!; try done.
    intros t Ht; simpl in Ht; repeat (apply elem_of_cons in Ht as [->|Ht]; [done|]); by apply elem_of_nil in Ht.
Qed.

(** Threads with objects of their own run interleaved step by step. *)
Example C79_separate_example :
  let s : sys nat := Sys {[ 1%positive := CB 0 1 0 (Some (7, [])); 2%positive := CB 0 1 1 (Some (8, [])) ]}
    [Thr [(KShared, 1%positive)] Idle [TCopy 0; TDrop 1; TUse 0; TDrop 0];
     Thr [(KShared, 2%positive); (KWeak, 2%positive)] Idle [TLock 1; TDrop 0; TUse 1; TDrop 1; TDrop 0]] in
  all_idle s /\ all_right s /\ separate s /\
  (exists s', run (concat (replicate 30 [0; 1])) s = inl s' /\ all_idle s' /\ handles s' = [] /\ sy_mem s' = ∅).
Proof.
  intros s. split_and!.
  - intros t Ht; simpl in Ht; repeat (apply elem_of_cons in Ht as [->|Ht]; [done|]); by apply elem_of_nil in Ht.
  - intros c _. unfold block_right. destruct (decide (c = 1%positive)) as [->|H1]; [|destruct (decide (c = 2%positive)) as [->|H2]].
    + change (owners KShared 1 s) with 1. change (owners KWeak 1 s) with 0. cbn -[lookup]. rewrite lookup_insert.
      split_and!; try done; [split; [lia|done]|lia].
    + change (owners KShared 2 s) with 1. change (owners KWeak 2 s) with 1. cbn -[lookup].
      rewrite lookup_insert_ne, lookup_singleton by done. split_and!; try done; [split; [lia|done]|lia].
    + simpl. rewrite lookup_insert_ne, lookup_singleton_ne by done.
      unfold owners, handles. simpl. rewrite !filter_cons, filter_nil. rewrite !decide_False by congruence. done.
  - intros [|[|i]] [|[|j]] t u k k' c Hi Hj H1 H2; simpl in *; simplify_eq; try done; exfalso; simpl in *;
      repeat (match goal with
              | H : _ ∈ _ :: _ |- _ => apply elem_of_cons in H as [H|H]
              | H : _ ∈ [] |- _ => by apply elem_of_nil in H
              end; simplify_eq).
  - subst s. eexists (Sys _ _). split; [vm_compute; reflexivity|]. split_and!; try done.
    2: by apply (bool_decide_unpack _); vm_compute.
    intros t Ht; simpl in Ht; repeat (apply elem_of_cons in Ht as [->|Ht]; [done|]); by apply elem_of_nil in Ht.
Qed.

(** A statement without interruption: the last owner goes, a weak_ptr stays. *)
Example C79_alone_example :
  let m : gmap addr (cblock nat) := {[ 1%positive := CB 0 1 1 (Some (7, [])) ]} in
  exists w', release_top (Cfg true 4 1000 0 Nothrow 0) 1%positive (World (SBlock <$> m) [] None 0 0) = Done tt w' /\
  w_heap w' !! 1%positive = Some (SBlock (CB 0 0 1 None)).
Proof. eexists. split; [by vm_compute|done]. Qed.
