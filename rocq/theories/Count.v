(** * Counting comparisons: rules *)
From Verif Require Export CountSpec.

Section rules.
  Context {V C : Type}.
  Notation K := (V -> V -> bool).
  Notation W := (world C).

  Lemma settled_mono {A} (m : K -> M C A) c w n n' : settled m c w n -> n <= n' -> settled m c w n'.
  Proof. intros (qs & Hl & H) Hn. exists qs. split; [lia|done]. Qed.
  Lemma settled_const {A} (m : M C A) (c : K) w n : settled (fun _ => m) c w n.
  Proof. exists []. split; [simpl; lia|]. done. Qed.
  Lemma settled_bind {A B} (m : K -> M C A) (k : K -> A -> M C B) c w n1 n2 n :
    settled m c w n1 -> (forall a w', m c w = Done a w' -> settled (fun c => k c a) c w' n2) -> n1 + n2 <= n ->
    settled (fun c => bind (m c) (k c)) c w n.
  Proof.
    intros (qs1 & Hl1 & H1) H2 Hn. destruct (m c w) as [a w'|f] eqn:Em.
    - destruct (H2 a w' eq_refl) as (qs2 & Hl2 & H2'). exists (qs1 ++ qs2). rewrite app_length. split; [lia|].
      intros c' [Hc1 Hc2]%Forall_app. unfold bind. rewrite (H1 c' Hc1), Em. by apply H2'.
    - exists qs1. split; [lia|]. intros c' Hc. unfold bind. by rewrite (H1 c' Hc), Em.
  Qed.
  (** a step that does not look at the comparator *)
  Lemma settled_step {A B} (m : M C A) (k : K -> A -> M C B) (c : K) w n :
    (forall a w', m w = Done a w' -> settled (fun c => k c a) c w' n) -> settled (fun c => bind m (k c)) c w n.
  Proof. intros H. eapply (settled_bind (fun _ => m)); [apply (settled_const m c w 0)|exact H|lia]. Qed.
  Lemma settled_runs {A B} (m : M C A) (k : K -> A -> M C B) c w n :
    runs m w (fun a w' => settled (fun c => k c a) c w' n) -> settled (fun c => bind m (k c)) c w n.
  Proof. intros (a0 & w0 & Hr & H). apply settled_step. intros a w' Hm. rewrite Hm in Hr. by simplify_eq. Qed.
  Lemma settled_ask {A} x y (m : K -> bool -> M C A) c w n :
    settled (fun c' => m c' (c x y)) c w n -> settled (fun c' => m c' (c' x y)) c w (S n).
  Proof.
    intros (qs & Hl & H). exists ((x, y) :: qs). split; [simpl; lia|]. intros c' [Hc Hcs]%Forall_cons. simpl in Hc.
    rewrite Hc. by apply H.
  Qed.
  Lemma settled_if {A} x y (m1 m2 : K -> M C A) c w n :
    (c x y = true -> settled m1 c w n) -> (c x y = false -> settled m2 c w n) ->
    settled (fun c => if c x y then m1 c else m2 c) c w (S n).
  Proof.
    intros H1 H2. apply (settled_ask x y (fun c (b : bool) => if b then m1 c else m2 c)).
    destruct (c x y); auto.
  Qed.
  Lemma settled_ifn {A} x y (m1 m2 : K -> M C A) c w n :
    (c x y = false -> settled m1 c w n) -> (c x y = true -> settled m2 c w n) ->
    settled (fun c => if negb (c x y) then m1 c else m2 c) c w (S n).
  Proof.
    intros H1 H2. apply (settled_ask x y (fun c (b : bool) => if negb b then m1 c else m2 c)).
    destruct (c x y); simpl; auto.
  Qed.
  Lemma settled_runs_assoc {A B D} (m : M C A) (k1 : K -> A -> M C B) (k2 : K -> B -> M C D) (c : K) w n :
    runs m w (fun a w' => settled (fun c => bind (k1 c a) (k2 c)) c w' n) ->
    settled (fun c => bind (bind m (k1 c)) (k2 c)) c w n.
  Proof.
    intros H. apply (settled_runs m (fun c a => bind (k1 c a) (k2 c))) in H. destruct H as (qs & Hl & H). exists qs. split; [done|].
    intros c' Hc. specialize (H c' Hc). unfold bind in *. destruct (m w) as [a w'|f]; [|done]. exact H.
  Qed.
  Lemma settled_ask_ret {A} x y (k : K -> bool -> M C A) c w n :
    settled (fun c' => k c' (c x y)) c w n -> settled (fun c' => bind (ret (c' x y)) (k c')) c w (S n).
  Proof. intros H. apply (settled_ask x y (fun c b => bind (ret b) (k c))). exact H. Qed.

  (** ** Counting together with the outcome *)
  Definition cruns {A} (m : K -> M C A) (c : K) (w : W) (Q : nat -> A -> W -> Prop) : Prop :=
    exists a w' n, m c w = Done a w' /\ settled m c w n /\ Q n a w'.

  Lemma cruns_ret {A} (a : A) (c : K) w (Q : nat -> A -> W -> Prop) : Q 0 a w -> cruns (fun _ => ret a) c w Q.
  Proof. intros H. exists a, w, 0. split; [done|]. split; [apply settled_const|done]. Qed.
  Lemma cruns_const {A} (m : M C A) (c : K) w (Q : nat -> A -> W -> Prop) : runs m w (Q 0) -> cruns (fun _ => m) c w Q.
  Proof. intros (a & w' & Hr & H). exists a, w', 0. split; [done|]. split; [apply settled_const|done]. Qed.
  Lemma cruns_bind {A B} (m : K -> M C A) (k : K -> A -> M C B) c w (Q : nat -> B -> W -> Prop) :
    cruns m c w (fun n a w' => cruns (fun c => k c a) c w' (fun n2 => Q (n + n2))) ->
    cruns (fun c => bind (m c) (k c)) c w Q.
  Proof.
    intros (a & w1 & n1 & H1 & Hs1 & b & w2 & n2 & H2 & Hs2 & HQ). exists b, w2, (n1 + n2).
    split; [unfold bind; by rewrite H1|]. split; [|done]. apply (settled_bind m k c w n1 n2); [done| |lia].
    intros a' w' Hm. rewrite H1 in Hm. by simplify_eq.
  Qed.
  Lemma cruns_step {A B} (m : M C A) (k : K -> A -> M C B) c w (Q : nat -> B -> W -> Prop) :
    runs m w (fun a w' => cruns (fun c => k c a) c w' Q) -> cruns (fun c => bind m (k c)) c w Q.
  Proof. intros H. apply (cruns_bind (fun _ => m)). apply cruns_const. exact H. Qed.
  Lemma cruns_if {A} x y (m1 m2 : K -> M C A) c w (Q : nat -> A -> W -> Prop) :
    (c x y = true -> cruns m1 c w (fun n => Q (S n))) -> (c x y = false -> cruns m2 c w (fun n => Q (S n))) ->
    cruns (fun c => if c x y then m1 c else m2 c) c w Q.
  Proof.
    intros H1 H2. destruct (c x y) eqn:E.
    - destruct (H1 eq_refl) as (a & w' & n & Hm & Hs & HQ). exists a, w', (S n). rewrite E. split_and!; [done| |done].
      apply settled_if; [done|congruence].
    - destruct (H2 eq_refl) as (a & w' & n & Hm & Hs & HQ). exists a, w', (S n). rewrite E. split_and!; [done| |done].
      apply settled_if; [congruence|done].
  Qed.
  Lemma cruns_ask {A} x y (m : K -> bool -> M C A) c w (Q : nat -> A -> W -> Prop) :
    cruns (fun c' => m c' (c x y)) c w (fun n => Q (S n)) -> cruns (fun c' => m c' (c' x y)) c w Q.
  Proof.
    intros (a & w' & n & Hm & Hs & HQ). exists a, w', (S n). split_and!; [done| |done]. by apply settled_ask.
  Qed.
  Lemma cruns_intro {A} (m : K -> M C A) c w n (Q : A -> W -> Prop) :
    settled m c w n -> runs (m c) w Q -> cruns m c w (fun n' a w' => n' = n /\ Q a w').
  Proof. intros Hs (a & w' & Hr & H). by exists a, w', n. Qed.
  Lemma cruns_mono {A} (m : K -> M C A) c w (P Q : nat -> A -> W -> Prop) :
    cruns m c w P -> (forall n a w', P n a w' -> Q n a w') -> cruns m c w Q.
  Proof. intros (a & w' & n & Hm & Hs & HP) H. exists a, w', n. auto. Qed.
  Lemma cruns_settled {A} (m : K -> M C A) c w N : cruns m c w (fun n _ _ => n <= N) -> settled m c w N.
  Proof. intros (a & w' & n & _ & Hs & Hn). by eapply settled_mono. Qed.
End rules.
Ltac cbind := apply cruns_bind.
Ltac cstep := apply cruns_step.
