(** * Vocabulary for handles in several threads *)
From Verif Require Export SpThrModel.

Section spec.
  Context {V : Type}.
  Notation sys := (sys V).

  (** All handles, and how many of kind [k] refer to the control block [c]. *)
  Definition handles (s : sys) : list (hkind * addr) := concat (th_handles <$> sy_thr s).
  Definition owners (k : hkind) (c : addr) (s : sys) : nat := length (filter (fun h => h = (k, c)) (handles s)).

  (** The control block a thread is working on. *)
  Definition busy (t : thr) : option addr :=
    match th_pc t with
    | Idle => None
    | AddLoaded c _ | RelLoaded c _ | RelStored c | RelDestroyed c
    | WAddLoaded c _ | WRelLoaded c _ | WRelStored c | WRelTested c | Locking c => Some c
    end.

  (** A control block exists exactly if there is a handle, its counters are
      the numbers of handles, and the object is alive exactly if it has an
      owner. *)
  Definition block_right (s : sys) (c : addr) : Prop :=
    match sy_mem s !! c with
    | None => owners KShared c s = 0 /\ owners KWeak c s = 0
    | Some b =>
        cb_use b = Z.of_nat (owners KShared c s) /\ cb_weak b = Z.of_nat (owners KWeak c s) /\
        (cb_val b <> None <-> owners KShared c s > 0) /\
        owners KShared c s + owners KWeak c s > 0
    end.
  (** So it is for all control blocks nobody is working on. *)
  Definition all_right (s : sys) : Prop := forall c,
    (forall t, t ∈ sy_thr s -> busy t <> Some c) -> block_right s c.
  Definition all_idle (s : sys) : Prop := forall t, t ∈ sy_thr s -> th_pc t = Idle.

  (** Two threads are in the middle of operations on one control block. *)
  Definition race (s : sys) : Prop := exists i j t u c,
    i <> j /\ sy_thr s !! i = Some t /\ sy_thr s !! j = Some u /\ busy t = Some c /\ busy u = Some c.
  (** That never happens under the schedule. *)
  Fixpoint race_free (sched : list nat) (s : sys) : Prop :=
    ~ race s /\
    match sched with
    | [] => True
    | i :: sched => match sstep i s with inl s' => race_free sched s' | inr _ => True end
    end.

  (** A thread makes a step only while no other is inside a statement: a lock
      is held for every statement. *)
  Fixpoint locked (sched : list nat) (s : sys) : Prop :=
    match sched with
    | [] => True
    | i :: sched =>
        (forall j t, j <> i -> sy_thr s !! j = Some t -> th_pc t = Idle) /\
        match sstep i s with inl s' => locked sched s' | inr _ => True end
    end.

  (** No object has handles in two threads. *)
  Definition separate (s : sys) : Prop := forall i j t u k k' c,
    sy_thr s !! i = Some t -> sy_thr s !! j = Some u -> (k, c) ∈ th_handles t -> (k', c) ∈ th_handles u -> i = j.
End spec.
