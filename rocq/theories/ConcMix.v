(** * Programs on one kind of memory cells as programs on several kinds

    Every model has its own type of memory cells.  Here a program on cells of
    type [C] becomes a program on a larger type [U] of cells. *)
From Verif Require Export Conc.

Section lift.
  Context {C U A B : Type} (into : C -> U) (out : U -> option C) (wrap : A -> B).
  Context (out_into : forall c, out (into c) = Some c).

  (** An access to a cell of another type is undefined behaviour. *)
  Fixpoint lift (p : prog C A) : prog U B :=
    match p with
    | PRet a => PRet (wrap a)
    | PStop f => PStop f
    | PLoad a f k => PLoad a f (fun u => match out u with Some c => lift (k c) | None => PStop FRaw end)
    | PStore a c k => PStore a (into c) (lift k)
    | PNew c k => PNew (into c) (fun r => lift (k r))
    | PFree a k => PFree a (lift k)
    | PLocal c k => PLocal (into c) (fun a => lift (k a))
    | PEvent k => PEvent (fun e => lift (k e))
    | PGetErr k => PGetErr (fun e => lift (k e))
    | PPutErr e k => PPutErr e (lift k)
    | PTickAlloc k => PTickAlloc (lift k)
    | PTickCtor k => PTickCtor (lift k)
    | PSize k => PSize (fun n => lift (k n))
    end.

  Definition lift_world (w : world C) : world U := World (into <$> w_heap w) (w_orc w) (w_err w) (w_allocs w) (w_ctors w).

  Lemma pick_fmap (h : gmap addr C) a : pick (into <$> h) a = pick h a.
  Proof. unfold pick. rewrite lookup_fmap, dom_fmap_L. by destruct (h !! a). Qed.
  Lemma exec_lift p : forall w, exec (lift p) (lift_world w) =
    match exec p w with Done a w' => Done (wrap a) (lift_world w') | Fault f => Fault f end.
  Proof using out_into.
    induction p as [a|f|a f k IH|a c k IH|c k IH|a k IH|c k IH|k IH|k IH|e k IH|k IH|k IH|k IH]; intros [h o e0 n1 n2]; cbn [lift exec].
    - done.
    - done.
    - simpl. rewrite lookup_fmap. destruct (h !! a) as [c|]; [|done]. simpl. rewrite out_into. apply (IH c (World h o e0 n1 n2)).
    - unfold store, bind, get_heap, put_heap. simpl. rewrite lookup_fmap. destruct (h !! a) as [d|]; [|done]. simpl.
      rewrite <-fmap_insert. exact (IH (World _ _ _ _ _)).
    - unfold alloc_cell, tick_alloc, next_event, bind, get_heap, put_heap, put_err, ret. simpl. destruct o as [|[hint|code] o]; simpl;
        first [rewrite pick_fmap, <-fmap_insert; exact (IH _ (World _ _ _ _ _))|exact (IH None (World _ _ _ _ _))].
    - unfold free_cell, bind, get_heap, put_heap. simpl. rewrite lookup_fmap. destruct (h !! a) as [d|]; [|done]. simpl.
      rewrite <-fmap_delete. exact (IH (World _ _ _ _ _)).
    - unfold new_local, bind, get_heap, put_heap, ret. simpl. rewrite dom_fmap_L, <-fmap_insert. exact (IH _ (World _ _ _ _ _)).
    - unfold next_event, bind. simpl. destruct o as [|ev o]; exact (IH _ (World _ _ _ _ _)).
    - exact (IH _ (World _ _ _ _ _)).
    - exact (IH (World h o e n1 n2)).
    - exact (IH (World h o e0 (S n1) n2)).
    - exact (IH (World h o e0 n1 (S n2))).
    - simpl. rewrite map_size_fmap. exact (IH _ (World _ _ _ _ _)).
  Qed.

  Lemma runs_lift p o (Q : A -> Prop) :
    runs (exec p) (World ∅ o None 0 0) (fun a w' => Q a /\ w_heap w' = ∅) ->
    runs (exec (lift p)) (World ∅ o None 0 0) (fun b w' => (exists a, b = wrap a /\ Q a) /\ w_heap w' = ∅).
  Proof using out_into.
    intros (a & w' & Hr & HQ & Hh). exists (wrap a), (lift_world w').
    assert (He : lift_world (World ∅ o None 0 0) = World ∅ o None 0 0) by (unfold lift_world; simpl; by rewrite fmap_empty).
    rewrite <-He, exec_lift, Hr. split; [done|]. split; [by exists a|]. unfold lift_world. simpl. by rewrite Hh, fmap_empty.
  Qed.
End lift.
