(** * Runs that may end in one particular kind of undefined behaviour

    [stops f m w Q]: started in [w], [m] either returns and [Q] holds, or it
    ends in the fault [f].  With a [Q] that excludes success this says that
    [m] cannot succeed. *)
From Verif Require Export BaseLemmas.

Definition stops {C A} (f : fault) (m : M C A) (w : world C) (Q : A -> world C -> Prop) : Prop :=
  match m w with
  | Done a w' => Q a w'
  | Fault g => g = f
  end.

Section stops.
  Context {C : Type} (f : fault).
  Implicit Types w : world C.
  Lemma runs_stops {A} (m : M C A) w Q : runs m w Q -> stops f m w Q.
  Proof. intros (a & w' & E & HQ). unfold stops. by rewrite E. Qed.
  Lemma stops_bind {A B} (m : M C A) (k : A -> M C B) w Q :
    stops f m w (fun a w' => stops f (k a) w' Q) -> stops f (bind m k) w Q.
  Proof. unfold stops, bind. by destruct (m w). Qed.
  Lemma stops_step {A B} (m : M C A) (k : A -> M C B) w Q :
    runs m w (fun a w' => stops f (k a) w' Q) -> stops f (bind m k) w Q.
  Proof. intros Hr. apply stops_bind. by apply runs_stops. Qed.
  Lemma stops_fault {A} (m : M C A) w Q : m w = Fault f -> stops f m w Q.
  Proof. unfold stops. by intros ->. Qed.
  Lemma stops_fault_bind {A B} (m : M C A) (k : A -> M C B) w Q : m w = Fault f -> stops f (bind m k) w Q.
  Proof. intros E. apply stops_bind. by apply stops_fault. Qed.
  Lemma stops_ret {A} (a : A) w (Q : A -> world C -> Prop) : Q a w -> stops f (ret a) w Q.
  Proof. done. Qed.
  Lemma stops_mono {A} (m : M C A) w (P Q : A -> world C -> Prop) :
    stops f m w P -> (forall a w', P a w' -> Q a w') -> stops f m w Q.
  Proof. unfold stops. destruct (m w); [|done]. eauto. Qed.
  Lemma stops_false {A} (m : M C A) w : stops f m w (fun _ _ => False) -> m w = Fault f.
  Proof. unfold stops. destruct (m w); [done|]. by intros ->. Qed.
End stops.
Ltac sstep := apply stops_step.
